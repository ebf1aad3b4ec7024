(** The left join goes through the left entries in order, whatever its callbacks do. *)
From Verif Require Export FxLeftSpec FxProof LeftJoinProof.

Section Prune.
Context {B K V : Type}.
Notation node := (node B K V).
Lemma prune_trans (no : node -> Prop) a b c : prune no a b -> prune no b c -> prune no a c.
Proof. induction 1; [auto|]. intros Hc. apply pr_drop; auto. Qed.
Lemma prune_ctx (no : node -> Prop) x y a b : prune no a b -> prune no (x ++ a ++ y) (x ++ b ++ y).
Proof.
  induction 1 as [l|a c b l Hq _ IH]; [constructor|].
  replace (x ++ (a ++ entries c ++ b) ++ y) with ((x ++ a) ++ entries c ++ (b ++ y)) by (now rewrite <- !app_assoc).
  apply pr_drop; [exact Hq|]. rewrite <- !app_assoc in *. exact IH.
Qed.
Lemma prune_tail (no : node -> Prop) y a b : prune no a b -> prune no (a ++ y) (b ++ y).
Proof. intros H. exact (prune_ctx no [] y a b H). Qed.
Lemma prune_skip (no : node -> Prop) sk l : Forall no sk -> prune no (flat_map entries sk ++ l) l.
Proof. induction 1 as [|c sk Hc H IH]; cbn; [constructor|]. rewrite <- app_assoc. apply (pr_drop no []); auto. Qed.
Lemma prune_mono (no no' : node -> Prop) a b : (forall c, no c -> no' c) -> prune no a b -> prune no' a b.
Proof. intros H. induction 1; [constructor|]. apply pr_drop; auto. Qed.
End Prune.

(** *** [find] on a rewindable iterator *)
Section RwFind.
Context {W T E : Type} (test : W -> T -> option bool * W) (ask : T -> E).
Notation wl := (W * list (E * option bool))%type.
Notation rwrem r := (skipn (rw_i r) (rw_slice r)).
Definition rejects (x : T) : Prop := exists w, fst (test w x) = Some false.

Lemma fx_rw_find_spec fuel r w lg : rw_i r <= length (rw_slice r) -> length (rwrem r) <= fuel ->
  exists o r' w' used, fx_rw_find (ltest test ask) fuel r (w, lg) = Ok (o, r', (w', lg ++ used)) /\ rw_slice r' = rw_slice r /\ rw_i r' <= length (rw_slice r) /\
  match o with
  | Yield c => (exists sk, rwrem r = sk ++ c :: rwrem r' /\ Forall rejects sk) /\ panics used = 0
  | Done => (Forall rejects (rwrem r) /\ rwrem r' = []) /\ panics used = 0
  | Panicked => exists pre c, used = pre ++ [(ask c, None)] /\ panics pre = 0
  end.
Proof.
  revert r w lg; induction fuel as [|fuel IH]; intros [s i] w lg; cbn [rw_slice rw_i]; intros Hi Hf; cbn [fx_rw_find]; unfold rw_next; cbn [rw_slice rw_i].
  - destruct (Nat.ltb_spec i (length s)) as [Hlt|Hge].
    { rewrite skipn_length in Hf. lia. }
    eexists Done, _, w, []. rewrite app_nil_r. split; [reflexivity|]. cbn [rw_slice rw_i]. split; [reflexivity|]. split; [exact Hi|].
    rewrite (skipn_all2 s) by lia. split; [split; [constructor|reflexivity]|reflexivity].
  - destruct (Nat.ltb_spec i (length s)) as [Hlt|Hge].
    + destruct (nth_error_exists i s Hlt) as [x Hx]. rewrite Hx. rewrite (skipn_S _ _ _ Hx) in *. cbn [length] in Hf. rewrite Nat.add_1_r.
      unfold ltest at 1. cbn [fst snd]. destruct (test w x) as [[[|]|] w1] eqn:Et.
      * eexists (Yield x), _, w1, _. split; [reflexivity|]. cbn [rw_slice rw_i]. split; [reflexivity|]. split; [lia|].
        split; [exists []; split; [reflexivity|constructor]|reflexivity].
      * destruct (IH {| rw_slice := s; rw_i := S i |} w1 (lg ++ [(ask x, Some false)])) as (o & r' & w' & used & E1 & H1 & H2 & H3); cbn [rw_slice rw_i]; [lia|lia|].
        cbn [rw_slice rw_i] in *. exists o, r', w', ((ask x, Some false) :: used). rewrite <- app_assoc in E1. split; [exact E1|]. split; [exact H1|]. split; [exact H2|].
        assert (Hrej : rejects x) by (exists w; now rewrite Et).
        destruct o as [c| |].
        -- destruct H3 as ((sk & E3 & Hsk) & H3). split; [|exact H3]. exists (x :: sk). rewrite E3. split; [reflexivity|]. now constructor.
        -- destruct H3 as ((H3 & H4) & H5). split; [|exact H5]. split; [now constructor|exact H4].
        -- destruct H3 as (pre & c & -> & Hp). exists ((ask x, Some false) :: pre), c. split; [reflexivity|exact Hp].
      * eexists Panicked, _, w1, _. split; [reflexivity|]. cbn [rw_slice rw_i]. split; [reflexivity|]. split; [lia|].
        exists [], x. split; reflexivity.
    + eexists Done, _, w, []. rewrite app_nil_r. split; [reflexivity|]. cbn [rw_slice rw_i]. split; [reflexivity|]. split; [exact Hi|].
      rewrite (skipn_all2 s) by lia. split; [split; [constructor|reflexivity]|reflexivity].
Qed.
End RwFind.

(** *** The search of the right stack *)
Section FxSearch.
Context {W B K V Ask L : Type} (test : W -> node B K V -> option bool * W) (ask : node B K V -> Ask) (Kd : nat -> node B K V -> Prop).
Context (Hkd : kd_spec Kd).
Notation node := (node B K V).
Notation st := (iter_stack L (rewindable node)).
Notation rrem := (fun r : rewindable node => skipn (rw_i r) (rw_slice r)).
Notation expand := (fun m : node => let* cs := read_inner (node_children m) in Ok (rw_new cs)).
Notation rwok := (fun k (r : rewindable node) => rw_i r <= length (rw_slice r) /\ Forall (Kd k) (rw_slice r)).
Notation spend := (spend (L := L) rrem).
Notation sweight := (sweight (L := L) rrem).
Notation sempty := (sempty (L := L) rrem).
Notation topf := (top_full (L := L) (rw_slice (T := node))).
Notation no := (fun c => (exists k, Kd k c) /\ rejects test c).

Lemma rwok_rem k r : rwok k r -> Forall (Kd k) (rrem r).
Proof.
  intros [_ Hr]. apply Forall_forall. intros x Hx. rewrite Forall_forall in Hr. apply Hr. rewrite <- (firstn_skipn (rw_i r)). apply in_or_app. auto.
Qed.

Lemma fx_search_spec k fuel i (s : st) w lg : sok rwok k s -> Forall sempty (firstn i s) -> 2 * sweight s + (length s - i) <= fuel ->
  exists o s' w' used, fx_inner_find (ltest test ask) expand fuel i s (w, lg) = Ok (o, s', (w', lg ++ used)) /\
  sok rwok k s' /\ length s' = length s /\ topf s' = topf s /\
  match o with
  | Yield m => Kd k m /\ prune no (spend s) (entries m ++ spend s') /\ panics used = 0
  | Done => prune no (spend s) [] /\ Forall sempty s' /\ panics used = 0
  | Panicked => exists pre c, used = pre ++ [(ask c, None)] /\ panics pre = 0
  end.
Proof.
  revert i s w lg; induction fuel as [|fuel IH]; intros i s w lg Hok Hlow Hfuel; cbn [fx_inner_find].
  { destruct (Nat.ltb_spec i (length s)); [lia|]. rewrite firstn_all2 in Hlow by lia.
    exists Done, s, w, []. rewrite app_nil_r. do 4 (split; [auto|]). split; [|split; [exact Hlow|reflexivity]]. rewrite (spend_empty _ _ Hlow). constructor. }
  destruct (Nat.ltb_spec i (length s)) as [Hlt|Hge].
  2: { rewrite firstn_all2 in Hlow by lia.
    exists Done, s, w, []. rewrite app_nil_r. do 4 (split; [auto|]). split; [|split; [exact Hlow|reflexivity]]. rewrite (spend_empty _ _ Hlow). constructor. }
  destruct (nth_error_exists i s Hlt) as [x Hx]. apply nth_error_split in Hx as (l1 & l2 & -> & Hl1).
  rewrite firstn_app, <- Hl1, firstn_all, Nat.sub_diag in Hlow. cbn [firstn] in Hlow. rewrite app_nil_r in Hlow.
  apply sok_app in Hok as [Hok1 [Hk Hok2]]. rewrite Hl1 in Hk, Hok2.
  assert (Hlen : length (l1 ++ x :: l2) = i + S (length l2)) by (rewrite app_length, Hl1; reflexivity).
  rewrite Hlen in Hfuel. rewrite sweight_app, (sweight_empty _ _ Hlow), sweight_cons in Hfuel.
  destruct x as [|it]; [contradiction|]. cbn [sslot] in Hk. assert (Hrem := rwok_rem _ _ Hk). cbv beta in Hrem. cbn [slot_rem] in Hfuel.
  unfold stack_set_inner, stack_inner. rewrite (nth_at l1 _ _ _ Hl1). cbn [bind].
  destruct (fx_rw_find_spec test ask (length (rw_slice it)) it w lg) as (o & it' & w1 & used1 & E1 & Hfull & Hit' & Ho); [apply Hk|rewrite skipn_length; lia|].
  rewrite E1. cbn [bind].
  assert (Hok' : rwok (k + i) it') by (rewrite Hfull; split; [exact Hit'|apply Hk]).
  rewrite (set_at_end l1 _ _ _ _ Hl1).
  assert (Htop : topf (l1 ++ SInner it' :: l2) = topf (l1 ++ SInner it :: l2)) by (apply top_full_same; exact Hfull).
  destruct o as [c| |].
  - destruct Ho as ((sk & Erem & Hsk) & Hp1).
    assert (Hrem' := Hrem). rewrite Erem in Hrem'. apply Forall_app in Hrem' as [Hrsk Hr]. inversion Hr as [|? ? Hc Hr']; subst.
    assert (Hsh : prune no (spend (l1 ++ SInner it :: l2)) (entries c ++ flat_map entries (rrem it') ++ spend l2)).
    { rewrite spend_app, (spend_empty _ _ Hlow). cbn [app LeftJoinProof.spend flat_map slot_rem]. fold (spend l2).
      rewrite Erem, flat_map_app. cbn [flat_map]. rewrite <- !app_assoc. apply prune_skip.
      apply Forall_forall. intros d Hd. rewrite Forall_forall in Hrsk, Hsk. split; [exists (k + length l1); auto|auto]. }
    rewrite Erem in Hfuel. rewrite map_app, list_sum_app in Hfuel. cbn [map] in Hfuel.
    change (list_sum (node_size c :: map node_size (rrem it'))) with (node_size c + list_sum (map node_size (rrem it'))) in Hfuel.
    destruct l1 as [|x1 l1'] eqn:El1.
    + cbn [length]. exists (Yield c), (SInner it' :: l2), w1, used1. cbn [app]. split; [reflexivity|]. cbn [length] in *. rewrite Nat.add_0_r in *.
      split; [split; assumption|]. split; [reflexivity|]. split; [exact Htop|]. split; [exact Hc|].
      split; [exact Hsh|exact Hp1].
    + cbn [length]. assert (Hl1 : length l1 = S (length l1')) by (rewrite El1; reflexivity). rewrite <- El1 in *. clear El1.
      destruct (app_last_ _ _ Hl1) as (m1 & y & -> & Hm1). clear x1.
      apply sok_app in Hok1 as [Hokm [Hy _]]. rewrite Hm1 in Hy. apply Forall_app in Hlow as [Hlow1 Hlow2].
      rewrite app_length in Hc, Hok2, Hok'. cbn [length] in *. replace (k + (length m1 + 1)) with (S (k + length m1)) in * by lia.
      rewrite Hm1 in *.
      destruct (Hkd _ _ Hc) as (b & cs & -> & Hcs). cbn [node_children read_inner bind].
      destruct y as [|yit]; [contradiction|].
      replace ((m1 ++ [SInner yit]) ++ SInner it' :: l2) with (m1 ++ SInner yit :: SInner it' :: l2) in * by (now rewrite <- app_assoc).
      rewrite (nth_at m1 _ _ _ Hm1). cbn [bind]. rewrite (set_at_end m1 _ _ _ _ Hm1).
      destruct (IH (length l1') (m1 ++ SInner (rw_new cs) :: SInner it' :: l2) w1 (lg ++ used1)) as (o & s' & w' & used & E & H1 & H2 & H3 & H4).
      * apply sok_app. split; [exact Hokm|]. rewrite Hm1. cbn [sok sslot]. split; [split; [cbn; lia|exact Hcs]|]. split; assumption.
      * rewrite firstn_app, <- Hm1, firstn_all, Nat.sub_diag. cbn. now rewrite app_nil_r.
      * rewrite app_length, Hm1. cbn [length]. rewrite sweight_app, !sweight_cons, (sweight_empty _ _ Hlow1). cbn [slot_rem rw_new rw_i rw_slice skipn].
        cbv beta. cbn [node_size skipn rw_i rw_slice rw_new] in Hfuel |- *. rewrite list_sum_cons in Hfuel. lia.
      * exists o, s', w', (used1 ++ used). rewrite app_assoc. split; [exact E|]. split; [exact H1|]. split; [rewrite H2, !app_length; cbn; lia|].
        split.
        { rewrite H3. rewrite <- Htop. rewrite !top_full_app. reflexivity. }
        assert (Esp : spend (m1 ++ SInner (rw_new cs) :: SInner it' :: l2) = entries (Node b (CInner cs)) ++ flat_map entries (rrem it') ++ spend l2).
        { rewrite spend_app, (spend_empty _ _ Hlow1). reflexivity. }
        rewrite Esp in H4. rewrite panics_app, Hp1.
        destruct o as [m| |].
        -- destruct H4 as (G1 & G2 & G3). split; [exact G1|]. split; [eapply prune_trans; eassumption|exact G3].
        -- destruct H4 as (G1 & G2 & G3). split; [eapply prune_trans; eassumption|]. split; [exact G2|exact G3].
        -- destruct H4 as (pre & d & -> & Hp). exists (used1 ++ pre), d. rewrite app_assoc, panics_app, Hp1. auto.
  - destruct Ho as ((Hall & Hnil) & Hp1).
    assert (Hlow' : Forall sempty (l1 ++ [SInner it'])).
    { apply Forall_app. split; [exact Hlow|]. constructor; [exact Hnil|constructor]. }
    destruct (IH (i + 1) (l1 ++ SInner it' :: l2) w1 (lg ++ used1)) as (o & s' & w' & used & E & H1 & H2 & H3 & H4).
    + apply sok_app. split; [exact Hok1|]. rewrite Hl1. split; [exact Hok'|exact Hok2].
    + replace (l1 ++ SInner it' :: l2) with ((l1 ++ [SInner it']) ++ l2) by (now rewrite <- app_assoc).
      assert (El : length (l1 ++ [SInner it']) = i + 1) by (rewrite app_length, Hl1; reflexivity).
      rewrite firstn_app, El, Nat.sub_diag, <- El, firstn_all. cbn [firstn]. now rewrite app_nil_r.
    + rewrite app_length, Hl1. cbn [length]. rewrite sweight_app, sweight_cons, (sweight_empty _ _ Hlow). cbn [slot_rem]. rewrite Hnil. cbn. lia.
    + exists o, s', w', (used1 ++ used). rewrite app_assoc. split; [exact E|]. split; [exact H1|]. split; [rewrite H2, !app_length; reflexivity|].
      split; [rewrite H3; exact Htop|].
      assert (Hsh : prune no (spend (l1 ++ SInner it :: l2)) (spend (l1 ++ SInner it' :: l2))).
      { rewrite !spend_app, (spend_empty _ _ Hlow). cbn [app LeftJoinProof.spend flat_map slot_rem]. rewrite Hnil. cbn [flat_map app].
        apply prune_skip. apply Forall_forall. intros d Hd. rewrite Forall_forall in Hrem, Hall. split; [exists (k + i); auto|auto]. }
      rewrite panics_app, Hp1.
      destruct o as [m| |].
      * destruct H4 as (G1 & G2 & G3). split; [exact G1|]. split; [eapply prune_trans; eassumption|exact G3].
      * destruct H4 as (G1 & G2 & G3). split; [eapply prune_trans; eassumption|]. split; [exact G2|exact G3].
      * destruct H4 as (pre & d & -> & Hp). exists (used1 ++ pre), d. rewrite app_assoc, panics_app, Hp1. auto.
  - destruct Ho as (pre & c & -> & Hp). exists Panicked, (l1 ++ SInner it' :: l2), w1, (pre ++ [(ask c, None)]).
    split; [reflexivity|]. split; [apply sok_app; split; [exact Hok1|]; rewrite Hl1; split; [exact Hok'|exact Hok2]|].
    split; [rewrite !app_length; reflexivity|]. split; [exact Htop|]. exists pre, c. auto.
Qed.
End FxSearch.

(** *** The loop *)
Section FxLoop.
Context {W F B0 B1 K0 K1 V0 V1 Q0 Q1 : Type} (f : FxLeft W F B0 B1 K0 Q0 Q1) (flt : F).
Notation node0 := (node B0 K0 V0).
Notation node1 := (node B1 K1 V1).
Notation E0 := (K0 * V0)%type.
Notation E1 := (K1 * V1)%type.
Notation slotL := (slot (list E0) (list node0)).
Notation slotR := (slot (rewindable E1) (rewindable node1)).
Notation llog := (list (lquestion B0 B1 K0 Q0 * option bool)).
Context (Kd0 : nat -> node0 -> Prop) (Kd1 : nat -> node1 -> Prop).
Context (Hkd0 : kd_spec Kd0) (Hkd1 : kd_spec Kd1).
Context (Hleaf0 : forall n, Kd0 0 n -> exists b es, n = Node b (CLeaf es)).
Context (Hleaf1 : forall n, Kd1 0 n -> exists b es, n = Node b (CLeaf es)).
Context (root1 : node1) (fine : E0 -> list E1 -> Prop).
Notation no n := (fun c : node1 => (exists k, Kd1 k c) /\ rejects (fun w m => fl_bounds f flt w (node_bounds n) (node_bounds m)) c).
Context (fine_all : forall e, fine e (entries root1)).
Context (fine_prune : forall k (n : node0) e l l', Kd0 k n -> In e (entries n) -> prune (no n) l l' -> fine e l -> fine e l').

Notation okL := (okL Kd0).
Notation okR := (okR Kd1).
Notation linked := (linked (B0 := B0) root1 fine).
Notation rewound := (rewound (B0 := B0) (K0 := K0) (V0 := V0) root1).
Notation next_inv := (next_inv Kd0 Kd1 root1 fine).
Notation handed := (handed Kd1 fine).
Notation topR := (top_full (L := rewindable E1) (rw_slice (T := node1))).
Notation weightL s := (list_sum (map (@slot_size B0 K0 V0) s)).
Notation emptyL := (Forall (fun x : slotL => remE0 x = [])).

Lemma fx_right_find_spec (n : node0) l (mid : list slotR) w (lg : llog) : oks okR (S l) mid ->
  exists o mid' w' used, fx_right_find (llogged f) flt n mid (w, lg) = Ok (o, mid', (w', lg ++ used)) /\
  oks okR (S l) mid' /\ length mid' = length mid /\ topR mid' = topR mid /\
  match o with
  | Yield m => Kd1 l m /\ prune (no n) (pend1 mid) (entries m ++ pend1 mid') /\ panics used = 0
  | Done => prune (no n) (pend1 mid) [] /\ pend1 mid' = [] /\ panics used = 0
  | Panicked => exists pre b1, used = pre ++ [(LBounds (node_bounds n) b1, None)] /\ panics pre = 0
  end.
Proof.
  intros Hok. unfold fx_right_find.
  assert (Hconv : forall s, oks okR (S l) s <-> sok (fun k (r : rewindable node1) => rw_i r <= length (rw_slice r) /\ Forall (Kd1 k) (rw_slice r)) l s).
  { clear. intros s. rewrite sok_oks. split; apply oks_ext; intros i y; cbn; destruct y; auto. }
  destruct (fx_search_spec (L := rewindable E1) (fun w m => fl_bounds f flt w (node_bounds n) (node_bounds m))
    (fun m => @LBounds B0 B1 K0 Q0 (node_bounds n) (node_bounds m)) Kd1 Hkd1 l
    (2 * list_sum (map rw_slot_size mid) + length mid) 0 mid w lg) as (o & s' & w' & used & E & H1 & H2 & H3 & H4).
  - now apply Hconv.
  - constructor.
  - assert (Ew : sweight (L := rewindable E1) (fun r : rewindable node1 => skipn (rw_i r) (rw_slice r)) mid = list_sum (map rw_slot_size mid)).
    { unfold sweight. f_equal. apply map_ext. intros [|r]; reflexivity. }
    rewrite Ew. lia.
  - exists o, s', w', used. apply Hconv in H1. split; [exact E|]. split; [exact H1|]. split; [exact H2|]. split; [exact H3|].
    rewrite (okR_spend _ _ _ Hok), (okR_spend _ _ _ H1) in H4. destruct o as [m| |]; [exact H4| |].
    + destruct H4 as (G1 & G2 & G3). split; [exact G1|]. split; [|exact G3]. rewrite <- (okR_spend _ _ _ H1). now apply spend_empty.
    + destruct H4 as (pre & c & -> & Hp). exists pre, (node_bounds c). auto.
Qed.

(** How the filter of the right iterator came about. *)
Definition joining_of (e : E0) (j : @fx_joining F B0 Q0) : Prop :=
  let '(b, q, c) := j in
  (exists w, fst (fl_borrow f w (fst e)) = Some q) /\ (exists w, fst (fl_clone f flt w) = Some c) /\ (exists w, fst (fl_qbounds f w q) = Some b).

Lemma fx_joining_new_spec (e : E0) w (lg : llog) :
  exists o w' used, fx_joining_new (llogged f) flt (fst e) (w, lg) = (o, (w', lg ++ used)) /\
  match o with
  | Yield j => joining_of e j /\ panics used = 0
  | Done => False
  | Panicked => exists pre q, used = pre ++ [(q, None)] /\ panics pre = 0 /\ forall root : node0, made_for root q [e]
  end.
Proof.
  unfold fx_joining_new. cbn [llogged fl_borrow fl_clone fl_qbounds fst snd].
  destruct (fl_borrow f w (fst e)) as [[q|] w1] eqn:E1; cbn [fst snd].
  2:{ eexists _, _, [_]. split; [reflexivity|]. exists [], (LBorrow (fst e)). split; [reflexivity|]. split; [reflexivity|]. constructor. }
  destruct (fl_clone f flt w1) as [[c|] w2] eqn:E2; cbn [fst snd].
  2:{ eexists _, _, [_; _]. rewrite <- app_assoc. split; [reflexivity|]. exists [(LBorrow (fst e), Some true)], LClone.
      split; [reflexivity|]. split; [reflexivity|]. constructor. }
  destruct (fl_qbounds f w2 q) as [[b|] w3] eqn:E3; cbn [fst snd].
  2:{ eexists _, _, [_; _; _]. rewrite <- !app_assoc. split; [reflexivity|]. exists [(LBorrow (fst e), Some true); (LClone, Some true)], (LKeyBounds q).
      split; [reflexivity|]. split; [reflexivity|]. constructor. }
  eexists _, _, [_; _; _]. rewrite <- !app_assoc. split; [reflexivity|]. split; [|reflexivity].
  split; [exists w; now rewrite E1|]. split; [exists w1; now rewrite E2|exists w2; now rewrite E3].
Qed.

(** What one call does. *)
Definition left_outcome (P : list E0) (o : outcome (@fx_item F B0 B1 K0 K1 V0 V1 Q0)) (L' : list slotL) (used : llog) : Prop :=
  match o with
  | Yield (e, (sr, j)) => P = e :: pend0 L' /\ handed e sr /\ joining_of e j /\ panics used = 0
  | Done => P = [] /\ pend0 L' = [] /\ weightL L' = 0 /\ panics used = 0
  | Panicked => exists es pre q, P = es ++ pend0 L' /\ used = pre ++ [(q, None)] /\ panics pre = 0 /\
    ((exists k n b1, Kd0 k n /\ es = entries n /\ q = LBounds (node_bounds n) b1) \/ exists e, es = [e] /\ forall root : node0, made_for root q es)
  end.

Lemma left_outcome_more P o L' a used : panics a = 0 -> left_outcome P o L' used -> left_outcome P o L' (a ++ used).
Proof.
  intros Ha. destruct o as [[e [sr j]]| |]; cbn [left_outcome]; rewrite ?panics_app, ?Ha; [tauto|tauto|].
  intros (es & pre & q & H1 & -> & H2 & H3). exists es, (a ++ pre), q. rewrite app_assoc, panics_app, Ha. auto.
Qed.

Ltac kill_bool w := let H := fresh in (assert (H : w = true) by reflexivity) || (assert (H : w = false) by reflexivity); clearbody w; destruct w; try discriminate H; clear H.

Lemma node_size_pos (n : node0) : 1 <= node_size n.
Proof. destruct n as [b [cs|es]]; cbn; lia. Qed.

Lemma fx_loop_spec fuel Lo Lc Ro Rc w (lg : llog) : length Lo = length Ro -> emptyL Lo -> weightL Lo = 0 -> oks okL 0 (Lo ++ Lc) -> oks okR 0 (Ro ++ Rc) ->
  Lc <> [] -> Rc <> [] -> 2 <= length (Lo ++ Lc) -> 2 <= length (Ro ++ Rc) -> linked Lc Rc -> rewound Lc Rc ->
  2 * weightL (Lo ++ Lc) + Nat.min (length Lc) (length Rc) <= fuel ->
  exists o L' R' w' used, fx_left_loop (llogged f) flt fuel (length Lo) (Lo ++ Lc, Ro ++ Rc) (w, lg) = Ok (o, (L', R'), (w', lg ++ used)) /\
  next_inv L' R' /\ left_outcome (pend0 Lc) o L' used /\
  (weightL (Lo ++ Lc) = 0 -> pend0 Lc = [] -> o = Done /\ used = [] /\ w' = w).
Proof.
  revert Lo Lc Ro Rc w lg; induction fuel as [|fuel IH]; intros Lo Lc Ro Rc w lg Hlen Hlow Hw0 HoL HoR HLc HRc H2L H2R Hlink Hrew Hfuel.
  { destruct Lc; [congruence|]. destruct Rc; [congruence|]. cbn [length] in Hfuel. lia. }
  destruct Lc as [|x L']; [congruence|]. destruct Rc as [|y R']; [congruence|]. clear HLc HRc.
  assert (HtopR : topR (y :: R') = Some [root1]) by (eapply linked_topR; exact Hlink).
  (* ascending *)
  assert (Hup : forall x' Lt, oks okL 0 (Lo ++ x' :: Lt) -> length Lt = length L' -> remE0 x' = [] -> slot_size x' = 0 ->
    (R' = [] -> emptyL Lt /\ weightL Lt = 0) -> (R' <> [] -> Lt = L') -> pend0 (x' :: Lt) = pend0 (x :: L') ->
    weightL (Lo ++ x' :: Lt) <= weightL (Lo ++ x :: L') ->
    exists o L1 R1 w' used,
      (if length Lo + 1 =? Nat.min (length (Lo ++ x' :: Lt)) (length (Ro ++ y :: R')) then Ok (Done, (Lo ++ x' :: Lt, Ro ++ y :: R'), (w, lg))
       else let* (_, rr) := on_sub (Ro ++ y :: R') (length Lo + 1) (length Lo + 1 + 1 =? length (Lo ++ x' :: Lt))
                                 (fun s => let* s := rewind_inner s in Ok (tt, s)) in
            fx_left_loop (llogged f) flt fuel (length Lo + 1) (Lo ++ x' :: Lt, rr) (w, lg)) = Ok (o, (L1, R1), (w', lg ++ used)) /\
      next_inv L1 R1 /\ left_outcome (pend0 (x :: L')) o L1 used /\
      (weightL (Lo ++ x :: L') = 0 -> pend0 (x :: L') = [] -> o = Done /\ used = [] /\ w' = w)).
  { intros x' Lt HoL' El Hx' Hx0 Hc1 Hc2 Hp Hw. rewrite !app_length in *. cbn [length] in *.
    destruct (Nat.eqb_spec (length Lo + 1) (Nat.min (length Lo + S (length Lt)) (length Ro + S (length R')))) as [Em|Em].
    - assert (Hempty : emptyL (x' :: Lt) /\ weightL Lt = 0).
      { destruct R'; [destruct (Hc1 eq_refl) as [G1 G2]; split; [constructor; auto|exact G2]|]. destruct Lt; [split; [constructor; auto|reflexivity]|]. cbn [length] in Em. lia. }
      destruct Hempty as [Hempty HwLt].
      assert (Hpe : pend0 (x :: L') = []) by (rewrite <- Hp; now apply pend0_empty).
      rewrite Hpe. exists Done, (Lo ++ x' :: Lt), (Ro ++ y :: R'), w, []. rewrite app_nil_r. split; [reflexivity|].
      assert (Hall : emptyL (Lo ++ x' :: Lt)) by (apply Forall_app; auto).
      split; [|split; [cbn [left_outcome]; split; [reflexivity|]; split; [now apply pend0_empty|]; split; [|reflexivity]|auto]].
      + split; [exact HoL'|]. split; [exact HoR|]. rewrite !app_length. cbn [length]. split; [lia|]. split; [lia|].
        apply linked_empty; [exact Hall|]. now rewrite topR_app.
      + rewrite weightL_app, Hw0. change (weightL (x' :: Lt)) with (slot_size x' + weightL Lt). lia.
    - destruct R' as [|y2 R2]; [cbn [length] in Em; lia|]. rewrite (Hc2 ltac:(discriminate)) in *. clear Hc1 Hc2 El Lt.
      destruct L' as [|x2 L2]; [cbn [length] in Em; lia|]. cbn [length] in *.
      replace (Ro ++ y :: y2 :: R2) with ((Ro ++ [y]) ++ y2 :: R2) in * by (now rewrite <- app_assoc).
      replace (Lo ++ x' :: x2 :: L2) with ((Lo ++ [x']) ++ x2 :: L2) in * by (now rewrite <- app_assoc).
      assert (Elo : length (Lo ++ [x']) = length Lo + 1) by (rewrite app_length; reflexivity).
      assert (Ero : length (Ro ++ [y]) = length Lo + 1) by (rewrite app_length, Hlen; reflexivity).
      rewrite on_sub_split by exact Ero.
      assert (Ew : (length Lo + 1 + 1 =? length Lo + S (S (length L2))) = (length L2 =? 0)).
      { destruct (Nat.eqb_spec (length Lo + 1 + 1) (length Lo + S (S (length L2)))), (Nat.eqb_spec (length L2) 0); auto; lia. }
      rewrite Ew. set (w2 := length L2 =? 0) in *. apply oks_app in HoR as [HoR1 HoR2]. rewrite Ero in HoR2.
      replace (0 + (length Lo + 1)) with (S (length Lo)) in HoR2 by lia.
      rewrite <- (mid_rest w2) in HoR2. apply oks_app in HoR2 as [Hmid Hrest].
      destruct (rewind_spec Kd1 (length Lo) (midof w2 y2 R2)) as (mid' & E & H1 & H2 & H3 & H4); [now destruct w2|exact Hmid|].
      rewrite E. cbn [bind]. rewrite <- Elo.
      assert (Hm' : mid' <> []) by (destruct mid'; [destruct w2; discriminate|discriminate]).
      destruct Hlink as [_ Hlink].
      assert (Hlink' : linked (x2 :: L2) (mid' ++ restof w2 R2)).
      { apply (linked_replace Kd1 root1 fine (length Lo) x2 L2 y2 R2); auto. destruct w2; apply Hmid. }
      destruct (IH (Lo ++ [x']) (x2 :: L2) (Ro ++ [y]) (mid' ++ restof w2 R2) w lg) as (o & L1 & R1 & w' & used & G1 & G2 & G3 & G4).
      + now rewrite Elo, Ero.
      + apply Forall_app. auto.
      + rewrite weightL_app, Hw0. change (weightL [x']) with (slot_size x' + 0). lia.
      + exact HoL'.
      + apply oks_app. split; [exact HoR1|]. rewrite Ero. replace (0 + (length Lo + 1)) with (S (length Lo)) by lia.
        apply oks_app. split; [exact H1|]. rewrite H2. exact Hrest.
      + discriminate.
      + destruct mid'; [congruence|discriminate].
      + rewrite !app_length. cbn [length]. lia.
      + rewrite !app_length. cbn [length]. destruct mid'; [congruence|]. cbn [length]. lia.
      + exact Hlink'.
      + assert (Htop2 : topR (y2 :: R2) = Some [root1]) by exact HtopR.
        destruct L2 as [|x3 L3].
        { kill_bool w2. cbn [midof restof] in *. rewrite app_nil_r. rewrite Htop2 in H4. cbn in H4. rewrite app_nil_r in H4.
          injection H4 as H4. exact H4. }
        kill_bool w2. cbn [midof restof length] in *. destruct mid' as [|y' [|? ?]]; try discriminate. cbn [app LeftJoinProof.rewound].
        destruct R2 as [|y3 R3].
        { rewrite Htop2 in H4. cbn in H4. rewrite app_nil_r in H4. injection H4 as H4. cbn. rewrite H4, !app_nil_r. reflexivity. }
        destruct Hmid as [Hy2 _], H1 as [Hy' _]. rewrite (single_full Kd1 y2 y' _ Hy2 Hy' H3).
        cbn [top_full option_map slot_full pend1 flat_map] in H4. rewrite app_nil_r in H4. injection H4 as H4. rewrite H4.
        destruct y2; [contradiction|reflexivity].
      + assert (El : length (mid' ++ restof w2 R2) = S (length R2)).
        { rewrite app_length, H2, <- app_length, mid_rest. reflexivity. }
        rewrite El. cbn [length]. lia.
      + exists o, L1, R1, w', used. split; [exact G1|]. split; [exact G2|].
        assert (Epp : pend0 (x2 :: L2) = pend0 (x :: x2 :: L2)). { rewrite <- Hp. cbn [pend0 flat_map]. rewrite Hx'. reflexivity. }
        rewrite <- Epp. split; [exact G3|]. intros Hz. apply G4. lia. }
  cbn [fx_left_loop]. destruct (length Lo) as [|l] eqn:Elo.
  - (* level 0 *)
    destruct Lo; [|discriminate]. destruct Ro; [|discriminate]. cbn [app length] in *.
    destruct L' as [|x2 L2]; [cbn in H2L; lia|]. destruct R' as [|y2 R2]; [cbn in H2R; lia|].
    destruct x as [es|]; [|destruct HoL; contradiction]. cbn [stack_leaf nth_error bind]. destruct es as [|e es].
    + cbn [Nat.add] in Hup. apply (Hup (SLeaf []) (x2 :: L2)); auto; discriminate.
    + unfold stack_set_leaf. cbn [stack_leaf nth_error bind set_nth].
      destruct (remainder_spec Kd1 (y :: y2 :: R2)) as (sr & E & H1 & H2); [discriminate|exact HoR|]. rewrite E. cbn [bind].
      destruct (fx_joining_new_spec e w lg) as (o & w' & used & E2 & Ho). rewrite E2.
      assert (Hinv : next_inv (SLeaf es :: x2 :: L2) (y :: y2 :: R2)).
      { split; [exact HoL|]. split; [exact HoR|]. split; [exact H2L|]. split; [exact H2R|].
        destruct Hlink as [Hf Hl]. split; [|exact Hl]. intros e' He'. apply Hf. cbn in *. auto. }
      destruct o as [j| |]; [|contradiction|].
      * eexists _, _, _, w', used. split; [reflexivity|]. split; [exact Hinv|]. split; [|discriminate].
        cbn [left_outcome]. split; [reflexivity|]. split; [|exact Ho]. split; [exact H1|]. rewrite H2.
        apply (fine_now root1 fine fine_all _ _ _ _ Hlink Hrew). cbn. auto.
      * eexists _, _, _, w', used. split; [reflexivity|]. split; [exact Hinv|]. split; [|discriminate].
        destruct Ho as (pre & q & -> & Hp & Hq). cbn [left_outcome]. exists [e], pre, q.
        split; [reflexivity|]. split; [reflexivity|]. split; [exact Hp|]. right. exists e. auto.
  - (* level S l *)
    assert (HoL' := HoL). assert (HoR' := HoR). apply oks_app in HoL' as [HoL1 HoL2], HoR' as [HoR1 HoR2]. rewrite Elo in HoL2. rewrite <- Hlen in HoR2. cbn [Nat.add] in HoL2, HoR2.
    assert (EwL : (S l + 1 =? length (Ro ++ y :: R')) = (length R' =? 0)).
    { rewrite app_length. cbn [length]. rewrite <- Hlen. destruct (Nat.eqb_spec (S l + 1) (S l + S (length R'))), (Nat.eqb_spec (length R') 0); auto; lia. }
    rewrite EwL. set (wL := length R' =? 0) in *. rewrite on_sub_split by exact Elo.
    rewrite <- (mid_rest wL) in HoL2. apply oks_app in HoL2 as [HmidL HrestL].
    destruct (left_search_spec Kd0 Hkd0 l (midof wL x L') HmidL) as (o & midL & EL & HL1 & HL2 & HL3). rewrite EL. cbn [bind].
    assert (HmL : exists x' Lt, midL = midof wL x' Lt /\ length (Lt ++ restof wL L') = length L' /\ (wL = false -> Lt = [])).
    { destruct midL as [|x' Lt]; [destruct wL; discriminate|]. exists x', Lt. destruct wL; cbn in *.
      - rewrite app_nil_r. split; [reflexivity|]. split; [lia|discriminate].
      - destruct Lt; [|discriminate]. split; [reflexivity|]. split; [reflexivity|]. auto. }
    destruct HmL as (x' & Lt & EmL & ElL & HLt).
    assert (EL2 : midL ++ restof wL L' = x' :: Lt ++ restof wL L').
    { subst midL. destruct wL; [reflexivity|]. rewrite HLt by reflexivity. reflexivity. }
    assert (HpL : pend0 (x :: L') = pend0 (midof wL x L') ++ pend0 (restof wL L')) by (now rewrite <- pend0_app, mid_rest).
    assert (HwLe : weightL (x :: L') = weightL (midof wL x L') + weightL (restof wL L')) by (now rewrite <- weightL_app, mid_rest).
    assert (HoLn : oks okL 0 (Lo ++ midL ++ restof wL L')).
    { apply oks_app. split; [exact HoL1|]. rewrite Elo. apply oks_app. split; [exact HL1|]. rewrite HL2. exact HrestL. }
    destruct o as [n|].
    + destruct HL3 as (Hn & Hpe & Hwe).
      assert (Hpos := node_size_pos n).
      assert (EwR : (S l + 1 =? length (Lo ++ midL ++ restof wL L')) = (length L' =? 0)).
      { rewrite EL2, app_length, Elo. cbn [length]. rewrite ElL. destruct (Nat.eqb_spec (S l + 1) (S l + S (length L'))), (Nat.eqb_spec (length L') 0); auto; lia. }
      rewrite EwR. set (wR := length L' =? 0) in *. rewrite on_sub_split by (symmetry; exact Hlen).
      rewrite <- (mid_rest wR) in HoR2. apply oks_app in HoR2 as [HmidR HrestR].
      destruct (fx_right_find_spec n l (midof wR y R') w lg HmidR) as (m & midR & w1 & used1 & ER & HR1 & HR2 & HR3 & HR4). rewrite ER. cbn [bind].
      assert (HmR : midR <> []) by (destruct midR; [destruct wR; discriminate|discriminate]).
      assert (HpLe : pend0 (x :: L') = entries n ++ pend0 (midL ++ restof wL L')).
      { rewrite HpL, Hpe, pend0_app, <- app_assoc. reflexivity. }
      assert (Hlink' : linked (x' :: Lt ++ restof wL L') (midR ++ restof wR R')).
      { apply (linked_replace Kd1 root1 fine l x L' y R'); auto.
        - destruct wR; apply HmidR.
        - intros HR. assert (EwL' : wL = false). { unfold wL. destruct R'; [congruence|reflexivity]. }
          rewrite (HLt EwL'). rewrite EwL' in *. split; [reflexivity|]. cbn [midof pend0 flat_map] in Hpe. subst midL.
          cbn [midof pend0 flat_map] in Hpe. rewrite !app_nil_r in Hpe. intros e He. rewrite Hpe. apply in_or_app. now right. }
      assert (Elen : length (midL ++ restof wL L') = S (length L')) by (rewrite EL2; cbn [length]; now rewrite ElL).
      assert (ElenR : length (midR ++ restof wR R') = S (length R')) by (rewrite app_length, HR2, <- app_length, mid_rest; reflexivity).
      assert (Hgo : forall m : option node1, match m with Some m => Kd1 l m /\ prune (no n) (pend1 (midof wR y R')) (entries m ++ pend1 midR)
                                     | None => prune (no n) (pend1 (midof wR y R')) [] /\ pend1 midR = [] end -> panics used1 = 0 ->
        exists o L1 R1 w' used,
          (let* ll := iterate_left_children (Lo ++ midL ++ restof wL L') n l in
           let* rr := iterate_right_children (Ro ++ midR ++ restof wR R') m l in
           fx_left_loop (llogged f) flt fuel l (ll, rr) (w1, lg ++ used1)) = Ok (o, (L1, R1), (w', lg ++ used)) /\
          next_inv L1 R1 /\ left_outcome (pend0 (x :: L')) o L1 used /\
          (weightL (Lo ++ x :: L') = 0 -> pend0 (x :: L') = [] -> o = Done /\ used = [] /\ w' = w)).
      { clear HR4. intros m' HR4 Hp1.
        destruct (app_last_ _ _ Elo) as (Lo1 & xl & -> & ElLo). destruct (app_last_ Ro l (eq_sym Hlen)) as (Ro1 & yl & -> & ElRo).
        rewrite <- !app_assoc. cbn [app].
        assert (Hxl : okL l xl). { apply oks_app in HoL1 as [_ [H _]]. rewrite ElLo in H. exact H. }
        assert (Hyl : okR l yl). { apply oks_app in HoR1 as [_ [H _]]. rewrite ElRo in H. exact H. }
        destruct (set_left_spec Kd0 Hkd0 Hleaf0 l n Lo1 xl (midL ++ restof wL L') Hn ElLo Hxl) as (zL & EzL & HzL1 & HzL2 & HzL3).
        rewrite EzL. cbn [bind].
        destruct (set_right_spec Kd1 Hkd1 Hleaf1 l m' Ro1 yl (midR ++ restof wR R')) as (zR & EzR & HzR1 & HzR2 & HzR3); [destruct m'; tauto|exact ElRo|exact Hyl|].
        rewrite EzR. cbn [bind].
        apply Forall_app in Hlow as [Hlow1 _]. rewrite weightL_app in Hw0.
        assert (HpR : pend1 (y :: R') = pend1 (midof wR y R') ++ pend1 (restof wR R')) by (now rewrite <- pend1_app, mid_rest).
        assert (Hfine : forall e, In e (entries n) -> fine e (fullE1 zR ++ pend1 (midR ++ restof wR R'))).
        { intros e He. assert (Hnow : fine e (pend1 (y :: R'))).
          { apply (fine_now root1 fine fine_all _ _ _ _ Hlink Hrew). destruct R' as [|y2 R2].
            - rewrite HpLe. apply in_or_app. now left.
            - kill_bool wL. cbn [midof pend0 flat_map] in Hpe. rewrite app_nil_r in Hpe. rewrite Hpe. apply in_or_app. now left. }
          rewrite HpR in Hnow. rewrite HzR3, pend1_app, app_assoc. eapply (fine_prune _ n e); [exact Hn|exact He| |exact Hnow].
          apply prune_tail. destruct m' as [m'|]; [tauto|]. destruct HR4 as [G1 G2]. rewrite G2. exact G1. }
        rewrite <- ElLo.
        destruct (IH Lo1 (zL :: midL ++ restof wL L') Ro1 (zR :: midR ++ restof wR R') w1 (lg ++ used1)) as (o & L1 & R1 & w' & used & G1 & G2 & G3 & G4).
        * now rewrite ElLo, ElRo.
        * exact Hlow1.
        * lia.
        * rewrite <- app_assoc in HoLn. cbn [app] in HoLn. apply oks_app in HoLn as [F1 [F2 F3]]. apply oks_app. split; [exact F1|].
          split; [now rewrite ElLo|exact F3].
        * apply oks_app in HoR1 as [F1 _]. apply oks_app. split; [exact F1|]. rewrite ElRo. split; [exact HzR1|].
          apply oks_app. split; [exact HR1|]. rewrite HR2. exact HrestR.
        * discriminate.
        * discriminate.
        * rewrite app_length. cbn [length]. lia.
        * rewrite app_length. cbn [length]. lia.
        * rewrite EL2. cbn [LeftJoinProof.linked]. destruct (midR ++ restof wR R') as [|yy RR] eqn:EyR; [destruct midR; [congruence|discriminate]|].
          split; [|exact Hlink']. intros e He. apply Hfine. now rewrite <- HzL2.
        * rewrite EL2. cbn [LeftJoinProof.rewound]. destruct (midR ++ restof wR R') as [|yy RR] eqn:EyR; [destruct midR; [congruence|discriminate]|].
          exact HzR2.
        * rewrite !weightL_app in *. cbn [length] in *.
          change (weightL (zL :: midL ++ restof wL L')) with (slot_size zL + weightL (midL ++ restof wL L')).
          rewrite weightL_app.
          rewrite Elen, ElenR. rewrite HwLe in Hfuel. lia.
        * exists o, L1, R1, w', (used1 ++ used). rewrite app_assoc. split; [exact G1|]. split; [exact G2|].
          assert (Epp : pend0 (zL :: midL ++ restof wL L') = pend0 (x :: L')).
          { rewrite HpLe. change (pend0 (zL :: midL ++ restof wL L')) with (remE0 zL ++ pend0 (midL ++ restof wL L')). now rewrite HzL2. }
          rewrite <- Epp. split; [now apply left_outcome_more|]. intros Hz. exfalso. rewrite weightL_app in Hz.
          change (weightL (xl :: x :: L')) with (slot_size xl + weightL (x :: L')) in Hz. rewrite HwLe in Hz. lia. }
      destruct m as [m| |].
      * apply (Hgo (Some m)); tauto.
      * apply (Hgo None); tauto.
      * destruct HR4 as (pre & b1 & -> & Hp).
        eexists Panicked, _, _, w1, _. split; [reflexivity|]. split; [|split].
        -- split; [exact HoLn|]. split; [apply oks_app; split; [exact HoR1|]; rewrite <- Hlen; apply oks_app; split; [exact HR1|rewrite HR2; exact HrestR]|].
           rewrite (app_length Lo), Elen, (app_length Ro), ElenR. split; [lia|]. split; [lia|]. rewrite EL2.
           assert (Hl2 : length Lo = length Ro) by (rewrite Elo; exact Hlen). clear - Hlow Hl2 Hlink' ElenR. rename Hl2 into Hlen. revert Ro Hlen. induction Hlow as [|a Lo Ha Hlow IH]; intros [|b Ro] Hlen; cbn [length] in Hlen; try discriminate; [exact Hlink'|].
           injection Hlen as Hlen. specialize (IH Ro Hlen). cbn [app LeftJoinProof.linked].
           destruct (Lo ++ x' :: Lt ++ restof wL L') as [|a2 Lx] eqn:EL; [destruct Lo; discriminate|].
           destruct (Ro ++ midR ++ restof wR R') as [|b2 Rx] eqn:ER; [destruct Ro; [cbn [app] in ER; rewrite ER in ElenR|]; discriminate|].
           split; [|exact IH]. intros e He. rewrite Ha in He. destruct He.
        -- cbn [left_outcome]. exists (entries n), pre, (LBounds (node_bounds n) b1). rewrite pend0_app, (pend0_empty _ Hlow).
           split; [exact HpLe|]. split; [reflexivity|]. split; [exact Hp|]. left. exists l, n, b1. auto.
        -- intros Hz. exfalso. rewrite weightL_app, HwLe in Hz. lia.
    + destruct HL3 as (Hpe & Hemp & Hwe). rewrite EL2 in HoLn |- *.
      assert (Hx' : remE0 x' = []). { subst midL. destruct wL; inversion Hemp; assumption. }
      assert (Hx0 : slot_size x' = 0). { subst midL. destruct wL; cbn in Hwe; lia. }
      replace (length (Lo ++ x :: L')) with (length (Lo ++ x' :: Lt ++ restof wL L'))
        by (rewrite (app_length Lo (x' :: _)), (app_length Lo (x :: L')); cbn [length]; now rewrite ElL).
      apply (Hup x' (Lt ++ restof wL L')); auto.
      * intros ->. kill_bool wL. cbn [restof]. rewrite app_nil_r. subst midL. split; [now inversion Hemp|]. cbn [midof] in Hwe.
        change (weightL (x' :: Lt)) with (slot_size x' + weightL Lt) in Hwe. lia.
      * intros HR. assert (EwL' : wL = false). { unfold wL. destruct R'; [congruence|reflexivity]. }
        rewrite (HLt EwL'), EwL'. reflexivity.
      * rewrite <- EL2, pend0_app, (pend0_empty _ Hemp), HpL, Hpe. reflexivity.
      * rewrite <- EL2. rewrite !weightL_app. rewrite HwLe. lia.
Qed.
End FxLoop.

(** *** Sessions *)
Section FxLeftSession.
Context {W F B0 B1 K0 K1 V0 V1 Q0 Q1 : Type} (f : FxLeft W F B0 B1 K0 Q0 Q1) (flt : F).
Notation node0 := (node B0 K0 V0).
Notation node1 := (node B1 K1 V1).
Notation E0 := (K0 * V0)%type.
Notation E1 := (K1 * V1)%type.
Notation llog := (list (lquestion B0 B1 K0 Q0 * option bool)).
Context (Kd0 : nat -> node0 -> Prop) (Kd1 : nat -> node1 -> Prop).
Context (Hkd0 : kd_spec Kd0) (Hkd1 : kd_spec Kd1).
Context (Hleaf0 : forall n, Kd0 0 n -> exists b es, n = Node b (CLeaf es)).
Context (Hleaf1 : forall n, Kd1 0 n -> exists b es, n = Node b (CLeaf es)).
Context (root0 : node0) (Hroot0 : forall k n, Kd0 k n -> below_or_at root0 n).
Context (root1 : node1) (fine : E0 -> list E1 -> Prop).
Notation no n := (fun c : node1 => (exists k, Kd1 k c) /\ rejects (fun w m => fl_bounds f flt w (node_bounds n) (node_bounds m)) c).
Context (fine_all : forall e, fine e (entries root1)).
Context (fine_prune : forall k (n : node0) e l l', Kd0 k n -> In e (entries n) -> prune (no n) l l' -> fine e l -> fine e l').
Notation inv := (next_inv Kd0 Kd1 root1 fine).
Notation weightL s := (list_sum (map (@slot_size B0 K0 V0) s)).

Lemma fx_left_next_spec L R w (lg : llog) : inv L R ->
  exists o L' R' w' used, fx_left_next (llogged f) flt (L, R) (w, lg) = Ok (o, (L', R'), (w', lg ++ used)) /\
  inv L' R' /\ left_outcome f flt Kd0 Kd1 fine (pend0 L) o L' used /\
  (weightL L = 0 -> pend0 L = [] -> o = Done /\ used = [] /\ w' = w).
Proof.
  intros (H1 & H2 & H3 & H4 & H5). unfold fx_left_next. cbn [fst snd].
  destruct (Nat.eqb_spec (Nat.min (length L) (length R)) 0); [lia|].
  apply (fx_loop_spec f flt Kd0 Kd1 Hkd0 Hkd1 Hleaf0 Hleaf1 root1 fine fine_all fine_prune _ [] L [] R w lg); auto.
  - destruct L; [cbn in H3; lia|discriminate].
  - destruct R; [cbn in H4; lia|discriminate].
  - destruct L as [|x [|x2 L]]; cbn [length] in *; [lia|lia|]. destruct R as [|y [|y2 R]]; cbn [length] in *; [lia|lia|]. cbn [rewound].
    destruct H2 as [Hy _]. destruct y as [r|]; [|contradiction]. cbn in *. now rewrite Hy.
  - unfold left_join_fuel. cbn [fst app]. lia.
Qed.

Definition item_ok (x : @fx_item F B0 B1 K0 K1 V0 V1 Q0) : Prop :=
  handed Kd1 fine (fst x) (fst (snd x)) /\ joining_of f flt (fst x) (snd (snd x)).

Ltac rw_session E2 := match goal with |- context [session ?a ?b ?c ?d ?e] => let E3 := fresh in assert (E3 := E2 : session a b c d e = _); rewrite E3; clear E3 end; cbn [bind].

Lemma left_session_spent gs L R w (lg : llog) : inv L R -> weightL L = 0 -> pend0 L = [] ->
  exists L' R' w', session (fx_left_next (llogged f) flt) gs (L, R) w lg = Ok (repeat Done (length gs), (L', R'), w', lg) /\ pend0 L' = [].
Proof.
  revert L R w lg. induction gs as [|g gs IH]; intros L R w lg Hi Hw Hp; cbn [session length repeat].
  - exists L, R, w. auto.
  - destruct (fx_left_next_spec L R (g w) lg Hi) as (o & L' & R' & w' & used & E & Hi' & Ho & Hz). destruct (Hz Hw Hp) as (-> & -> & ->).
    rewrite E. cbn [bind]. cbn [left_outcome] in Ho. destruct Ho as (_ & Hp' & Hw' & _). rewrite app_nil_r.
    destruct (IH L' R' (g w) lg Hi' Hw' Hp') as (L2 & R2 & w2 & E2 & Hp2). rw_session E2. exists L2, R2, w2. auto.
Qed.

Lemma fused_repeat {A} n : fused (repeat (@Done A) n).
Proof. exists [], n. split; [reflexivity|auto]. Qed.
Lemma fused_cons {A} (o : outcome A) os : o <> Done -> fused os -> fused (o :: os).
Proof. intros H (os1 & k & -> & H1). exists (o :: os1), k. split; [reflexivity|]. intros [E|E]; auto. Qed.

Lemma left_session_spec gs L R w (lg : llog) : inv L R ->
  exists os L' R' w' used, session (fx_left_next (llogged f) flt) gs (L, R) w lg = Ok (os, (L', R'), w', lg ++ used) /\
  length os = length gs /\ fused os /\ panics used = unwound os /\
  left_walk root0 (pend0 L) os used (pend0 L') /\ (In Done os -> pend0 L' = []) /\
  Forall item_ok (yields os).
Proof.
  revert L R w lg. induction gs as [|g gs IH]; intros L R w lg Hi.
  - exists [], L, R, w, []. cbn [session]. rewrite app_nil_r. splits; try reflexivity; [apply (fused_repeat 0)|constructor|contradiction|constructor].
  - destruct (fx_left_next_spec L R (g w) lg Hi) as (o & L1 & R1 & w1 & used1 & E & Hi1 & Ho & Hz). clear Hz.
    cbn [session]. rewrite E. cbn [bind]. destruct o as [[e [sr j]]| |].
    + destruct Ho as (Hp & Hh & Hj & Hu).
      destruct (IH L1 R1 w1 (lg ++ used1) Hi1) as (os & L2 & R2 & w2 & used & E2 & H1 & H2 & H3 & H4 & H5 & H6).
      rw_session E2. exists (Yield (e, (sr, j)) :: os), L2, R2, w2, (used1 ++ used). rewrite app_assoc.
      splits; [reflexivity|cbn; now rewrite H1|apply fused_cons; [discriminate|exact H2]|rewrite panics_app, Hu, H3; reflexivity| | |].
      * rewrite Hp. now apply lw_yield.
      * intros [Hc|Hc]; [discriminate|auto].
      * cbn [yields flat_map app]. constructor; [split; assumption|exact H6].
    + destruct Ho as (Hp & Hp1 & Hw1 & Hu).
      destruct (left_session_spent gs L1 R1 w1 (lg ++ used1) Hi1 Hw1 Hp1) as (L2 & R2 & w2 & E2 & Hp2).
      rw_session E2. exists (Done :: repeat Done (length gs)), L2, R2, w2, used1.
      assert (Hn : forall n, panics (@nil (lquestion B0 B1 K0 Q0 * option bool)) = unwound (repeat (@Done (@fx_item F B0 B1 K0 K1 V0 V1 Q0)) n) /\
        yields (repeat (@Done (@fx_item F B0 B1 K0 K1 V0 V1 Q0)) n) = [] /\
        left_walk (I := @tree_stack B1 K1 V1 * @fx_joining F B0 Q0) root0 [] (repeat Done n) (@nil (lquestion B0 B1 K0 Q0 * option bool)) []).
      { clear. induction n as [|n (IH1 & IH2 & IH3)]; [split; [reflexivity|]; split; [reflexivity|constructor]|].
        split; [exact IH1|]. split; [exact IH2|]. exact (lw_done root0 _ [] [] [] eq_refl IH3). }
      destruct (Hn (length gs)) as (Hn1 & Hn2 & Hn3).
      splits; [reflexivity|cbn; now rewrite repeat_length|apply (fused_repeat (S (length gs)))| | |auto|].
      * rewrite Hu. exact Hn1.
      * rewrite Hp, Hp2. rewrite <- (app_nil_r used1). now apply lw_done.
      * cbn [yields flat_map app]. fold (yields (repeat (@Done (@fx_item F B0 B1 K0 K1 V0 V1 Q0)) (length gs))). rewrite Hn2. constructor.
    + destruct Ho as (es & pre & q & Hp & -> & Hu & Hq).
      destruct (IH L1 R1 w1 (lg ++ pre ++ [(q, None)]) Hi1) as (os & L2 & R2 & w2 & used & E2 & H1 & H2 & H3 & H4 & H5 & H6).
      rw_session E2. exists (Panicked :: os), L2, R2, w2, ((pre ++ [(q, None)]) ++ used). rewrite (app_assoc lg (pre ++ [(q, None)]) used).
      splits; [reflexivity|cbn; now rewrite H1|apply fused_cons; [discriminate|exact H2]| | | |].
      * rewrite !panics_app, Hu, H3. reflexivity.
      * rewrite Hp, <- app_assoc. cbn [app]. apply lw_panic; [exact Hu| |exact H4].
        destruct Hq as [(k & n & b1 & Hn & -> & ->)|(e & -> & Hq)]; [|apply Hq]. apply mf_node. eapply Hroot0, Hn.
      * intros [Hc|Hc]; [discriminate|auto].
      * exact H6.
Qed.
End FxLeftSession.

Lemma left_join_start {B0 B1 K0 K1 V0 V1} (Kd0 : nat -> node B0 K0 V0 -> Prop) (Kd1 : nat -> node B1 K1 V1 -> Prop)
    (a : rtree B0 K0 V0) (b : rtree B1 K1 V1) fine : Kd0 (fst a) (snd a) -> Kd1 (fst b) (snd b) ->
  exists L R, rtree_left_join a b = Ok (L, R) /\ next_inv Kd0 Kd1 (snd b) fine L R /\ pend0 L = contents a.
Proof.
  intros Ha Hb. unfold rtree_left_join, left_join_new. rewrite stack_top_set. cbn [bind]. rewrite stack_top_set. cbn [bind].
  set (L := SLeaf [] :: map SInner (repeat [] (fst a)) ++ [SInner [snd a]]).
  set (R := SLeaf (rw_new []) :: map SInner (repeat (rw_new []) (fst b)) ++ [SInner (rw_new [snd b])]).
  assert (EL : L = (SLeaf [] :: map SInner (repeat [] (fst a))) ++ [SInner [snd a]]) by reflexivity.
  assert (ER : R = (SLeaf (rw_new []) :: map SInner (repeat (rw_new []) (fst b))) ++ [SInner (rw_new [snd b])]) by reflexivity.
  assert (Hempty : Forall (fun x : slot (list (K0 * V0)) (list (node B0 K0 V0)) => remE0 x = []) (SLeaf [] :: map SInner (repeat [] (fst a)))).
  { constructor; [reflexivity|]. apply Forall_map. apply Forall_forall. intros c Hc. apply repeat_spec in Hc as ->. reflexivity. }
  exists L, R. split; [reflexivity|]. split.
  - assert (Hl : length L = fst a + 2). { unfold L. cbn [length]. rewrite app_length, map_length, repeat_length. cbn. lia. }
    assert (Hr : length R = fst b + 2). { unfold R. cbn [length]. rewrite app_length, map_length, repeat_length. cbn. lia. }
    split; [|split; [|split; [lia|split; [lia|]]]].
    + split; [exact I|]. apply oks_app. rewrite map_length, repeat_length. cbn [Nat.add]. split.
      * clear. generalize 0. generalize (fst a). intros m. induction m as [|m IH]; intros k; cbn; [exact I|]. split; [constructor|]. apply IH.
      * cbn. split; [|exact I]. constructor; [exact Ha|constructor].
    + split; [reflexivity|]. apply oks_app. rewrite map_length, repeat_length. cbn [Nat.add]. split.
      * clear. generalize 0. generalize (fst b). intros m. induction m as [|m IH]; intros k; cbn; [exact I|]. split; [split; [cbn; lia|constructor]|]. apply IH.
      * cbn. split; [|exact I]. split; [cbn; lia|]. constructor; [exact Hb|constructor].
    + rewrite EL. apply linked_init; [exact Hempty|]. rewrite ER. rewrite top_full_app. reflexivity.
  - rewrite EL, pend0_app, (pend0_empty _ Hempty). cbn. now rewrite !app_nil_r.
Qed.
