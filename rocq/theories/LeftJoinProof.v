(** The left join yields every left entry with exactly its matches. *)
From Verif Require Export JoinProof LeftJoinModel.

(** *** Leaving out the entries below pruned nodes *)
Section Shrink.
Context {B K V : Type} (g : node B K V -> bool) (Q : node B K V -> Prop).

Inductive shrink : list (K * V) -> list (K * V) -> Prop :=
| sh_refl l : shrink l l
| sh_drop a c b l : Q c -> g c = false -> shrink (a ++ b) l -> shrink (a ++ entries c ++ b) l.

Lemma shrink_trans a b c : shrink a b -> shrink b c -> shrink a c.
Proof. induction 1; [auto|]. intros Hc. apply sh_drop; auto. Qed.
Lemma shrink_ctx x y a b : shrink a b -> shrink (x ++ a ++ y) (x ++ b ++ y).
Proof.
  induction 1 as [l|a c b l Hq Hg _ IH]; [constructor|].
  replace (x ++ (a ++ entries c ++ b) ++ y) with ((x ++ a) ++ entries c ++ (b ++ y)) by (now rewrite <- !app_assoc).
  apply sh_drop; [exact Hq|exact Hg|]. rewrite <- !app_assoc in *. exact IH.
Qed.
Lemma shrink_tail y a b : shrink a b -> shrink (a ++ y) (b ++ y).
Proof. intros H. exact (shrink_ctx [] y a b H). Qed.
Lemma shrink_skip sk l : Forall Q sk -> Forall (fun c => g c = false) sk -> shrink (flat_map entries sk ++ l) l.
Proof.
  intros HQ H. induction H as [|c sk Hc H IH]; cbn; [constructor|]. inversion HQ; subst. rewrite <- app_assoc.
  apply (sh_drop []); auto.
Qed.
End Shrink.

(** *** Searching a sub-stack *)
Section Search.
Context {B K V L I : Type} (take : I -> res (option (node B K V) * I)) (expand : node B K V -> res I).
Context (rem full : I -> list (node B K V)) (it_ok : nat -> I -> Prop) (g : node B K V -> bool) (Kd : nat -> node B K V -> Prop).
Notation node := (node B K V).

Definition take_spec : Prop := forall k it, it_ok k it -> exists o it', take it = Ok (o, it') /\ it_ok k it' /\ full it' = full it /\
  match o with
  | Some c => exists sk, rem it = sk ++ c :: rem it' /\ Forall (fun c => g c = false) sk
  | None => Forall (fun c => g c = false) (rem it) /\ rem it' = []
  end.
Definition expand_spec : Prop := forall k b cs, Forall (Kd k) cs ->
  exists it, expand (Node b (CInner cs)) = Ok it /\ it_ok k it /\ rem it = cs.
Definition rem_spec : Prop := forall k it, it_ok k it -> Forall (Kd k) (rem it).
Definition kd_spec : Prop := forall k n, Kd (S k) n -> exists b cs, n = Node b (CInner cs) /\ Forall (Kd k) cs.
Context (Htake : take_spec) (Hexp : expand_spec) (Hremk : rem_spec) (Hkd : kd_spec).

Notation st := (iter_stack L I).
Definition slot_rem (x : slot L I) : list node := match x with SInner it => rem it | SLeaf _ => [] end.
Definition slot_full (x : slot L I) : list node := match x with SInner it => full it | SLeaf _ => [] end.
Definition spend (s : st) : list (K * V) := flat_map (fun x => flat_map entries (slot_rem x)) s.
Definition sweight (s : st) : nat := list_sum (map (fun x => list_sum (map node_size (slot_rem x))) s).
Definition sslot (k : nat) (x : slot L I) : Prop :=
  match x with SInner it => it_ok k it | SLeaf _ => False end.
Fixpoint sok (k : nat) (s : st) : Prop := match s with [] => True | x :: s => sslot k x /\ sok (S k) s end.
Fixpoint top_full (s : st) : option (list node) :=
  match s with [] => None | x :: s => match s with [] => Some (slot_full x) | _ => top_full s end end.
Definition sempty (x : slot L I) : Prop := slot_rem x = [].

Lemma sok_app k a b : sok k (a ++ b) <-> sok k a /\ sok (k + length a) b.
Proof.
  clear. revert k; induction a as [|x a IH]; intros k; cbn; [rewrite Nat.add_0_r; tauto|].
  rewrite IH. replace (k + S (length a)) with (S k + length a) by lia. tauto.
Qed.
Lemma spend_app a b : spend (a ++ b) = spend a ++ spend b.
Proof. apply flat_map_app. Qed.
Lemma sweight_app a b : sweight (a ++ b) = sweight a + sweight b.
Proof. unfold sweight. now rewrite map_app, list_sum_app. Qed.
Lemma sweight_cons x b : sweight (x :: b) = list_sum (map node_size (slot_rem x)) + sweight b.
Proof. reflexivity. Qed.
Lemma spend_empty s : Forall sempty s -> spend s = [].
Proof. clear. unfold spend. induction 1 as [|x s Hx _ IH]; cbn; [reflexivity|]. rewrite Hx, IH. reflexivity. Qed.
Lemma sweight_empty s : Forall sempty s -> sweight s = 0.
Proof. clear. unfold sweight. induction 1 as [|x s Hx _ IH]; cbn; [reflexivity|]. rewrite Hx. cbn. exact IH. Qed.
Lemma top_full_app a x b : top_full (a ++ x :: b) = top_full (x :: b).
Proof. clear. induction a as [|y a IH]; [reflexivity|]. cbn [app top_full]. destruct (a ++ x :: b) eqn:E; [now destruct a|]. exact IH. Qed.
Lemma top_full_same a x y b : slot_full x = slot_full y -> top_full (a ++ x :: b) = top_full (a ++ y :: b).
Proof. clear. intros H. rewrite !top_full_app. cbn. destruct b; [now rewrite H|reflexivity]. Qed.

Notation Qk := (fun c => exists k, Kd k c).

Lemma search_spec k fuel i s : sok k s -> Forall sempty (firstn i s) -> 2 * sweight s + (length s - i) <= fuel ->
  exists o s', inner_search take expand fuel i s = Ok (o, s') /\ sok k s' /\ length s' = length s /\ top_full s' = top_full s /\
  match o with
  | Some m => Kd k m /\ shrink g Qk (spend s) (entries m ++ spend s') /\ sweight s' + node_size m <= sweight s
  | None => shrink g Qk (spend s) [] /\ Forall sempty s'
  end.
Proof.
  revert i s; induction fuel as [|fuel IH]; intros i s Hok Hlow Hfuel; cbn [inner_search].
  { destruct (Nat.ltb_spec i (length s)); [lia|]. rewrite firstn_all2 in Hlow by lia.
    exists None, s. do 4 (split; [auto|]). split; [|exact Hlow]. rewrite (spend_empty _ Hlow). constructor. }
  destruct (Nat.ltb_spec i (length s)) as [Hlt|Hge].
  2: { rewrite firstn_all2 in Hlow by lia.
    exists None, s. do 4 (split; [auto|]). split; [|exact Hlow]. rewrite (spend_empty _ Hlow). constructor. }
  destruct (nth_error_exists i s Hlt) as [x Hx]. apply nth_error_split in Hx as (l1 & l2 & -> & Hl1).
  rewrite firstn_app, <- Hl1, firstn_all, Nat.sub_diag in Hlow. cbn [firstn] in Hlow. rewrite app_nil_r in Hlow.
  apply sok_app in Hok as [Hok1 [Hk Hok2]]. rewrite Hl1 in Hk, Hok2.
  assert (Hlen : length (l1 ++ x :: l2) = i + S (length l2)) by (rewrite app_length, Hl1; reflexivity).
  rewrite Hlen in Hfuel. rewrite sweight_app, (sweight_empty _ Hlow), sweight_cons in Hfuel.
  destruct x as [|it]; [contradiction|]. cbn [sslot] in Hk. assert (Hrem := Hremk _ _ Hk). cbn [slot_rem] in Hfuel.
  unfold stack_set_inner, stack_inner. rewrite (nth_at l1 _ _ _ Hl1). cbn [bind].
  destruct (Htake _ it Hk) as (o & it' & -> & Hit' & Hfull & Ho). cbn [bind].
  rewrite (set_at_end l1 _ _ _ _ Hl1). destruct o as [c|].
  - destruct Ho as (sk & Erem & Hsk).
    assert (Hrem' := Hrem). rewrite Erem in Hrem'. apply Forall_app in Hrem' as [Hrsk Hr]. inversion Hr as [|? ? Hc Hr']; subst.
    assert (Hsh : shrink g Qk (spend (l1 ++ SInner it :: l2)) (entries c ++ flat_map entries (rem it') ++ spend l2)).
    { rewrite spend_app, (spend_empty _ Hlow). cbn [app spend flat_map slot_rem]. fold (spend l2).
      rewrite Erem, flat_map_app. cbn [flat_map]. rewrite <- !app_assoc. apply shrink_skip; [|exact Hsk].
      eapply Forall_impl; [|exact Hrsk]. intros d Hd. eauto. }
    rewrite Erem in Hfuel. rewrite map_app, list_sum_app in Hfuel. cbn [map] in Hfuel.
    change (list_sum (node_size c :: map node_size (rem it'))) with (node_size c + list_sum (map node_size (rem it'))) in Hfuel.
    assert (Htop : top_full (l1 ++ SInner it' :: l2) = top_full (l1 ++ SInner it :: l2)) by (apply top_full_same; exact Hfull).
    destruct l1 as [|x1 l1'] eqn:El1.
    + cbn [length]. exists (Some c), (SInner it' :: l2). cbn [app]. split; [reflexivity|]. cbn [length] in *. rewrite Nat.add_0_r in *.
      split; [split; assumption|]. split; [reflexivity|]. split; [exact Htop|]. split; [exact Hc|].
      split; [exact Hsh|]. rewrite !sweight_cons. cbn [slot_rem]. rewrite Erem, map_app, list_sum_app. cbn [map].
      change (list_sum (node_size c :: map node_size (rem it'))) with (node_size c + list_sum (map node_size (rem it'))). lia.
    + cbn [length]. assert (Hl1 : length l1 = S (length l1')) by (rewrite El1; reflexivity). rewrite <- El1 in *. clear El1.
      destruct (app_last_ _ _ Hl1) as (m1 & y & -> & Hm1). clear x1.
      apply sok_app in Hok1 as [Hokm [Hy _]]. rewrite Hm1 in Hy. apply Forall_app in Hlow as [Hlow1 Hlow2].
      rewrite app_length in Hc, Hok2, Hit'. cbn [length] in *. replace (k + (length m1 + 1)) with (S (k + length m1)) in * by lia.
      rewrite Hm1 in *.
      destruct (Hkd _ _ Hc) as (b & cs & -> & Hcs). destruct (Hexp _ b cs Hcs) as (itn & -> & Hn1 & Hn2). cbn [bind].
      destruct y as [|yit]; [contradiction|].
      replace ((m1 ++ [SInner yit]) ++ SInner it' :: l2) with (m1 ++ SInner yit :: SInner it' :: l2) in * by (now rewrite <- app_assoc).
      rewrite (nth_at m1 _ _ _ Hm1). cbn [bind]. rewrite (set_at_end m1 _ _ _ _ Hm1).
      destruct (IH (length l1') (m1 ++ SInner itn :: SInner it' :: l2)) as (o & s' & E & H1 & H2 & H3 & H4).
      * apply sok_app. split; [exact Hokm|]. rewrite Hm1. cbn [sok sslot]. repeat (split; try assumption).
      * rewrite firstn_app, <- Hm1, firstn_all, Nat.sub_diag. cbn. now rewrite app_nil_r.
      * rewrite app_length, Hm1. cbn [length]. rewrite sweight_app, !sweight_cons, (sweight_empty _ Hlow1). cbn [slot_rem]. rewrite Hn2.
        cbn [node_size] in Hfuel. lia.
      * exists o, s'. split; [exact E|]. split; [exact H1|]. split; [rewrite H2, !app_length; cbn; lia|].
        split.
        { rewrite H3. rewrite <- Htop. rewrite !top_full_app. reflexivity. }
        assert (Esp : spend (m1 ++ SInner itn :: SInner it' :: l2) = entries (Node b (CInner cs)) ++ flat_map entries (rem it') ++ spend l2).
        { rewrite spend_app, (spend_empty _ Hlow1). cbn [app spend flat_map slot_rem]. rewrite Hn2. reflexivity. }
        rewrite Esp in H4.
        assert (Ew : sweight (m1 ++ SInner itn :: SInner it' :: l2) <= sweight ((m1 ++ [SInner yit]) ++ SInner it :: l2)).
        { rewrite !sweight_app, !sweight_cons. cbn [slot_rem]. rewrite Hn2, Erem, map_app, list_sum_app. cbn [map].
          change (list_sum (node_size (Node b (CInner cs)) :: map node_size (rem it'))) with (node_size (Node b (CInner cs)) + list_sum (map node_size (rem it'))).
          cbn [node_size]. lia. }
        destruct o as [m|].
        -- destruct H4 as (G1 & G2 & G3). split; [exact G1|]. split; [eapply shrink_trans; eassumption|lia].
        -- destruct H4 as (G1 & G2). split; [eapply shrink_trans; eassumption|exact G2].
  - destruct Ho as [Hall Hnil].
    assert (Hlow' : Forall sempty (l1 ++ [SInner it'])).
    { apply Forall_app. split; [exact Hlow|]. constructor; [exact Hnil|constructor]. }
    destruct (IH (i + 1) (l1 ++ SInner it' :: l2)) as (o & s' & E & H1 & H2 & H3 & H4).
    + apply sok_app. split; [exact Hok1|]. rewrite Hl1. split; [exact Hit'|exact Hok2].
    + replace (l1 ++ SInner it' :: l2) with ((l1 ++ [SInner it']) ++ l2) by (now rewrite <- app_assoc).
      assert (El : length (l1 ++ [SInner it']) = i + 1) by (rewrite app_length, Hl1; reflexivity).
      rewrite firstn_app, El, Nat.sub_diag, <- El, firstn_all. cbn [firstn]. now rewrite app_nil_r.
    + rewrite app_length, Hl1. cbn [length]. rewrite sweight_app, sweight_cons, (sweight_empty _ Hlow). cbn [slot_rem]. rewrite Hnil. cbn. lia.
    + exists o, s'. split; [exact E|]. split; [exact H1|]. split; [rewrite H2, !app_length; reflexivity|].
      split; [rewrite H3; apply top_full_same; exact Hfull|].
      assert (Hsh : shrink g Qk (spend (l1 ++ SInner it :: l2)) (spend (l1 ++ SInner it' :: l2))).
      { rewrite !spend_app, (spend_empty _ Hlow). cbn [app spend flat_map slot_rem]. rewrite Hnil. cbn [flat_map app].
        apply shrink_skip; [|exact Hall]. eapply Forall_impl; [|exact Hrem]. intros d Hd. eauto. }
      assert (Ew : sweight (l1 ++ SInner it' :: l2) <= sweight (l1 ++ SInner it :: l2)).
      { rewrite !sweight_app, !sweight_cons. cbn [slot_rem]. rewrite Hnil. cbn. lia. }
      destruct o as [m|].
      * destruct H4 as (G1 & G2 & G3). split; [exact G1|]. split; [eapply shrink_trans; eassumption|lia].
      * destruct H4 as (G1 & G2). split; [eapply shrink_trans; eassumption|exact G2].
Qed.
End Search.

(** *** Sub-stacks *)
Lemma on_sub_whole {X A} (a b : list X) level (g : list X -> res (A * list X)) : length a = level ->
  on_sub (a ++ b) level true g = let* (r, b') := g b in Ok (r, a ++ b').
Proof.
  intros <-. unfold on_sub. rewrite app_length.
  destruct (Nat.ltb_spec (length a + length b) (length a)); [lia|].
  destruct (Nat.ltb_spec (length a + length b) (length a + length b)); [lia|]. cbn [orb].
  rewrite skipn_app, skipn_all, Nat.sub_diag. cbn [skipn app].
  replace (length a + length b - length a) with (length b) by lia. rewrite firstn_all.
  destruct (g b) as [[r b']| | |]; cbn [bind]; try reflexivity.
  rewrite firstn_app, Nat.sub_diag, firstn_all. cbn [firstn]. rewrite app_nil_r.
  rewrite skipn_all2 by (rewrite app_length; lia). now rewrite app_nil_r.
Qed.
Lemma on_sub_one {X A} (a : list X) x b level (g : list X -> res (A * list X)) : length a = level ->
  on_sub (a ++ x :: b) level false g = let* (r, m) := g [x] in Ok (r, a ++ m ++ b).
Proof.
  intros <-. unfold on_sub. rewrite app_length. cbn [length].
  destruct (Nat.ltb_spec (length a + 1) (length a)); [lia|].
  destruct (Nat.ltb_spec (length a + S (length b)) (length a + 1)); [lia|]. cbn [orb].
  rewrite skipn_app, skipn_all, Nat.sub_diag. cbn [skipn app].
  replace (length a + 1 - length a) with 1 by lia. cbn [firstn].
  destruct (g [x]) as [[r b']| | |]; cbn [bind]; try reflexivity.
  rewrite firstn_app, Nat.sub_diag, firstn_all. cbn [firstn]. rewrite app_nil_r.
  replace (skipn (length a + 1) (a ++ x :: b)) with b; [reflexivity|].
  rewrite skipn_app. rewrite skipn_all2 by lia. replace (length a + 1 - length a) with 1 by lia. reflexivity.
Qed.

Lemma shrink_true {B K V} (Q : node B K V -> Prop) a b : shrink (fun _ => true) Q a b -> a = b.
Proof. induction 1; [reflexivity|discriminate]. Qed.

Fixpoint oks {X} (P : nat -> X -> Prop) (k : nat) (s : list X) : Prop :=
  match s with [] => True | x :: s => P k x /\ oks P (S k) s end.
Lemma oks_app {X} (P : nat -> X -> Prop) k a b : oks P k (a ++ b) <-> oks P k a /\ oks P (k + length a) b.
Proof.
  revert k; induction a as [|x a IH]; intros k; cbn; [rewrite Nat.add_0_r; tauto|].
  rewrite IH. replace (k + S (length a)) with (S k + length a) by lia. tauto.
Qed.
Lemma oks_ext {X} (P P' : nat -> X -> Prop) k k' a : (forall i x, P (k + i) x -> P' (k' + i) x) -> oks P k a -> oks P' k' a.
Proof.
  revert k k'; induction a as [|x a IH]; intros k k' H; cbn; [auto|]. intros [H1 H2]. split.
  - specialize (H 0 x). rewrite !Nat.add_0_r in H. auto.
  - apply (IH (S k)); [|exact H2]. intros i y. specialize (H (S i) y). now rewrite !Nat.add_succ_r in H.
Qed.

(** *** Rewindable iterators *)
Section Rw.
Context {T : Type}.
Notation rwrem r := (skipn (rw_i r) (rw_slice r)).

Lemma rw_find_loop_spec (g : T -> bool) fuel r : rw_i r <= length (rw_slice r) -> length (rwrem r) <= fuel ->
  exists o r', rw_find_loop g fuel r = Ok (o, r') /\ rw_slice r' = rw_slice r /\ rw_i r' <= length (rw_slice r) /\
  match o with
  | Some c => exists sk, rwrem r = sk ++ c :: rwrem r' /\ Forall (fun c => g c = false) sk
  | None => Forall (fun c => g c = false) (rwrem r) /\ rwrem r' = []
  end.
Proof.
  revert r; induction fuel as [|fuel IH]; intros [s i]; cbn [rw_slice rw_i]; intros Hi Hf; cbn [rw_find_loop]; unfold rw_next; cbn [rw_slice rw_i].
  - destruct (Nat.ltb_spec i (length s)) as [Hlt|Hge].
    { rewrite skipn_length in Hf. lia. }
    eexists None, _. split; [reflexivity|]. cbn [rw_slice rw_i]. split; [reflexivity|]. split; [exact Hi|].
    rewrite (skipn_all2 s) by lia. split; [constructor|reflexivity].
  - destruct (Nat.ltb_spec i (length s)) as [Hlt|Hge].
    + destruct (nth_error_exists i s Hlt) as [x Hx]. rewrite Hx. rewrite (skipn_S _ _ _ Hx) in *. cbn [length] in Hf. rewrite Nat.add_1_r.
      destruct (g x) eqn:Eg.
      * eexists (Some x), _. split; [reflexivity|]. cbn [rw_slice rw_i]. split; [reflexivity|]. split; [lia|]. exists []. split; [reflexivity|constructor].
      * destruct (IH {| rw_slice := s; rw_i := S i |}) as (o & r' & E & H1 & H2 & H3); cbn [rw_slice rw_i]; [lia|lia|].
        cbn [rw_slice rw_i] in *. exists o, r'. split; [exact E|]. split; [exact H1|]. split; [exact H2|]. destruct o as [c|].
        -- destruct H3 as (sk & E3 & Hsk). exists (x :: sk). rewrite E3. split; [reflexivity|]. now constructor.
        -- destruct H3 as [H3 H4]. split; [now constructor|exact H4].
    + eexists None, _. split; [reflexivity|]. cbn [rw_slice rw_i]. split; [reflexivity|]. split; [exact Hi|].
      rewrite (skipn_all2 s) by lia. split; [constructor|reflexivity].
Qed.
End Rw.

(** *** The loop *)
Section Loop.
Context {B0 B1 K0 K1 V0 V1 Q0 Q1 : Type} (f : JoinFilter B0 B1 Q0 Q1).
Notation node0 := (node B0 K0 V0).
Notation node1 := (node B1 K1 V1).
Notation E0 := (K0 * V0)%type.
Notation E1 := (K1 * V1)%type.
Notation slotL := (slot (list E0) (list node0)).
Notation slotR := (slot (rewindable E1) (rewindable node1)).
Context (Kd0 : nat -> node0 -> Prop) (Kd1 : nat -> node1 -> Prop).
Context (Hkd0 : kd_spec Kd0) (Hkd1 : kd_spec Kd1).
Context (Hleaf0 : forall n, Kd0 0 n -> exists b es, n = Node b (CLeaf es)).
Context (Hleaf1 : forall n, Kd1 0 n -> exists b es, n = Node b (CLeaf es)).
Context (root1 : node1) (fine : E0 -> list E1 -> Prop).
Notation Qk1 := (fun c => exists k, Kd1 k c).
Notation tbn n := (fun m : node1 => jtest_bounds f (node_bounds n) (node_bounds m)).
Context (fine_all : forall e, fine e (entries root1)).
Context (fine_shrink : forall k (n : node0) e l l', Kd0 k n -> In e (entries n) -> shrink (tbn n) Qk1 l l' -> fine e l -> fine e l').

Definition remE0 (x : slotL) : list E0 := match x with SLeaf es => es | SInner cs => flat_map entries cs end.
Definition remE1 (y : slotR) : list E1 :=
  match y with SLeaf r => skipn (rw_i r) (rw_slice r) | SInner r => flat_map entries (skipn (rw_i r) (rw_slice r)) end.
Definition fullE1 (y : slotR) : list E1 := match y with SLeaf r => rw_slice r | SInner r => flat_map entries (rw_slice r) end.
Definition pend0 (s : list slotL) : list E0 := flat_map remE0 s.
Definition pend1 (s : list slotR) : list E1 := flat_map remE1 s.
Definition okL (k : nat) (x : slotL) : Prop :=
  match k, x with 0, SLeaf _ => True | S k, SInner cs => Forall (Kd0 k) cs | _, _ => False end.
Definition rw_ok (k : nat) (r : rewindable node1) : Prop := rw_i r <= length (rw_slice r) /\ Forall (Kd1 k) (rw_slice r).
Definition okR (k : nat) (y : slotR) : Prop :=
  match k, y with 0, SLeaf r => rw_i r = 0 | S k, SInner r => rw_ok k r | _, _ => False end.

Notation rrem := (fun r : rewindable node1 => skipn (rw_i r) (rw_slice r)).
Notation topR := (top_full (L := rewindable E1) (rw_slice (T := node1))).
Notation weightL s := (list_sum (map (@slot_size B0 K0 V0) s)).

Fixpoint linked (Lc : list slotL) (Rc : list slotR) {struct Lc} : Prop :=
  match Lc with
  | x :: L' =>
    match L', Rc with
    | _ :: _, y :: R' =>
      match R' with
      | _ :: _ => (forall e, In e (remE0 x) -> fine e (fullE1 y ++ pend1 R')) /\ linked L' R'
      | [] => topR Rc = Some [root1]
      end
    | _, _ => topR Rc = Some [root1]
    end
  | [] => topR Rc = Some [root1]
  end.

Definition rewound (Lc : list slotL) (Rc : list slotR) : Prop :=
  match Lc, Rc with
  | _ :: _ :: _, y :: _ :: _ => remE1 y = fullE1 y
  | _, _ => pend1 Rc = entries root1
  end.

Lemma linked_top Lc Rc : length Lc <= 1 \/ length Rc <= 1 -> linked Lc Rc <-> topR Rc = Some [root1].
Proof. destruct Lc as [|x [|x2 L]], Rc as [|y [|y2 R]]; cbn; try tauto; lia. Qed.
Lemma linked_topR Lc Rc : linked Lc Rc -> topR Rc = Some [root1].
Proof.
  revert Rc; induction Lc as [|x L IH]; intros Rc; cbn [linked]; [auto|]. destruct L as [|x2 L]; [auto|].
  destruct Rc as [|y [|y2 R]]; auto. intros [_ H]. apply IH in H. cbn [top_full] in *. exact H.
Qed.
Lemma linked_empty Lc Rc : Forall (fun x => remE0 x = []) Lc -> topR Rc = Some [root1] -> linked Lc Rc.
Proof.
  intros H. revert Rc; induction H as [|x L Hx H IH]; intros Rc Ht; cbn [linked]; [auto|]. destruct L as [|x2 L]; [auto|].
  destruct Rc as [|y [|y2 R]]; auto. split; [|apply IH; exact Ht]. intros e He. rewrite Hx in He. destruct He.
Qed.

Lemma okR_spend k s : oks okR (S k) s -> spend rrem s = pend1 s.
Proof.
  revert k; induction s as [|y s IH]; intros k; [reflexivity|]. intros [Hy Hs].
  change (flat_map entries (slot_rem rrem y) ++ spend rrem s = remE1 y ++ pend1 s). rewrite (IH _ Hs).
  destruct y; [contradiction|reflexivity].
Qed.
Lemma okL_spend k (s : list slotL) : oks okL (S k) s -> spend (fun cs : list node0 => cs) s = pend0 s.
Proof.
  revert k; induction s as [|y s IH]; intros k; [reflexivity|]. intros [Hy Hs].
  change (flat_map entries (slot_rem (fun cs : list node0 => cs) y) ++ spend (fun cs : list node0 => cs) s = remE0 y ++ pend0 s). rewrite (IH _ Hs).
  destruct y; [contradiction|reflexivity].
Qed.
Lemma sok_oks {L I} (P : nat -> I -> Prop) k (s : iter_stack L I) : sok P k s <-> oks (sslot P) k s.
Proof. revert k; induction s as [|x s IH]; intros k; cbn; [tauto|]. rewrite IH. tauto. Qed.

Lemma right_search_spec (g : node1 -> bool) l (mid : list slotR) : oks okR (S l) mid ->
  exists o mid', right_search g mid = Ok (o, mid') /\ oks okR (S l) mid' /\ length mid' = length mid /\ topR mid' = topR mid /\
  match o with
  | Some m => Kd1 l m /\ shrink g Qk1 (pend1 mid) (entries m ++ pend1 mid')
  | None => shrink g Qk1 (pend1 mid) [] /\ pend1 mid' = []
  end.
Proof.
  intros Hok. unfold right_search.
  assert (Hconv : forall s, oks okR (S l) s <-> sok rw_ok l s).
  { clear. intros s. rewrite sok_oks. split; apply oks_ext; intros i y; cbn; destruct y; auto. }
  destruct (search_spec (L := rewindable E1) (rw_find g) (fun n => let* cs := read_inner (node_children n) in Ok (rw_new cs)) rrem
    (rw_slice (T := node1)) rw_ok g Kd1) with (k := l) (i := 0) (s := mid) (fuel := 2 * list_sum (map rw_slot_size mid) + length mid)
    as (o & s' & E & H1 & H2 & H3 & H4).
  - intros k r [Hi Hs]. destruct (rw_find_loop_spec g (length (rw_slice r)) r Hi) as (o & r' & E & G1 & G2 & G3).
    { rewrite skipn_length. lia. }
    exists o, r'. split; [exact E|]. split; [split; rewrite G1; assumption|]. split; [exact G1|]. exact G3.
  - intros k b cs Hcs. exists (rw_new cs). split; [reflexivity|]. split; [split; [cbn; lia|exact Hcs]|reflexivity].
  - intros k r [_ Hr]. apply Forall_forall. intros x Hx. rewrite Forall_forall in Hr. apply Hr. rewrite <- (firstn_skipn (rw_i r)). apply in_or_app. auto.
  - exact Hkd1.
  - now apply Hconv.
  - constructor.
  - assert (Ew : sweight rrem mid = list_sum (map rw_slot_size mid)).
    { unfold sweight. f_equal. apply map_ext. intros [|r]; reflexivity. }
    rewrite Ew. lia.
  - exists o, s'. apply Hconv in H1. split; [exact E|]. split; [exact H1|]. split; [exact H2|]. split; [exact H3|].
    rewrite (okR_spend _ _ Hok), (okR_spend _ _ H1) in H4. destruct o as [m|]; [tauto|]. destruct H4 as [G1 G2].
    split; [exact G1|]. rewrite <- (okR_spend _ _ H1). now apply spend_empty.
Qed.

Lemma left_search_spec l (mid : list slotL) : oks okL (S l) mid ->
  exists o mid', left_search mid = Ok (o, mid') /\ oks okL (S l) mid' /\ length mid' = length mid /\
  match o with
  | Some n => Kd0 l n /\ pend0 mid = entries n ++ pend0 mid' /\ weightL mid' + node_size n <= weightL mid
  | None => pend0 mid = [] /\ Forall (fun x => remE0 x = []) mid' /\ weightL mid' = 0
  end.
Proof.
  intros Hok. unfold left_search.
  assert (Hconv : forall s : list slotL, oks okL (S l) s <-> sok (fun k => Forall (Kd0 k)) l s).
  { clear. intros s. rewrite sok_oks. split; apply oks_ext; intros i y; cbn; destruct y; auto. }
  assert (Ew : forall s : list slotL, sweight (fun cs : list node0 => cs) s = weightL s).
  { intros s. unfold sweight. f_equal. apply map_ext. intros [|r]; reflexivity. }
  destruct (search_spec (L := list E0) left_take (fun n => read_inner (node_children n)) (fun cs : list node0 => cs)
    (fun _ : list node0 => []) (fun k => Forall (Kd0 k)) (fun _ => true) Kd0) with (k := l) (i := 0) (s := mid) (fuel := stack_fuel mid)
    as (o & s' & E & H1 & H2 & H3 & H4).
  - intros k [|c r] H; eexists _, _; (split; [reflexivity|]).
    + split; [constructor|]. split; [reflexivity|]. split; [constructor|reflexivity].
    + inversion H; subst. split; [assumption|]. split; [reflexivity|]. exists []. split; [reflexivity|constructor].
  - intros k b cs Hcs. exists cs. auto.
  - intros k r Hr. exact Hr.
  - exact Hkd0.
  - now apply Hconv.
  - constructor.
  - rewrite Ew. unfold stack_fuel. lia.
  - exists o, s'. apply Hconv in H1. split; [exact E|]. split; [exact H1|]. split; [exact H2|].
    rewrite !Ew, (okL_spend _ _ Hok), (okL_spend _ _ H1) in H4. destruct o as [m|].
    + destruct H4 as (G1 & G2 & G3). apply shrink_true in G2. auto.
    + destruct H4 as (G1 & G2). apply shrink_true in G1. split; [exact G1|].
      split; [|rewrite <- Ew; now apply sweight_empty].
      clear - G2 H1. revert l H1; induction G2 as [|x s Hx _ IH]; intros l H1; constructor.
      * destruct H1 as [H1 _]. destruct x as [|cs]; [contradiction|]. cbn in *. now rewrite Hx.
      * destruct H1 as [_ H1]. eapply IH. exact H1.
Qed.

Lemma rewind_spec l (mid : list slotR) : mid <> [] -> oks okR (S l) mid ->
  exists mid', rewind_inner mid = Ok mid' /\ oks okR (S l) mid' /\ length mid' = length mid /\ topR mid' = topR mid /\
    Some (pend1 mid') = option_map (flat_map entries) (topR mid).
Proof.
  revert l; induction mid as [|y mid IH]; intros l Hne; [congruence|]. intros [Hy Hs]. destruct y as [|r]; [contradiction|].
  cbn [rewind_inner]. destruct mid as [|y2 mid].
  - eexists; split; [reflexivity|]. cbn. destruct Hy as [_ Hy]. split; [split; [split; [cbn; lia|exact Hy]|exact I]|].
    split; [reflexivity|]. split; [reflexivity|]. now rewrite app_nil_r.
  - destruct (IH (S l)) as (m' & E & H1 & H2 & H3 & H4); [discriminate|exact Hs|]. rewrite E. cbn [bind].
    eexists; split; [reflexivity|]. split; [split; [split; [cbn; lia|constructor]|exact H1]|].
    split; [cbn [length]; now rewrite H2|].
    assert (Et : topR (SInner (rw_new []) :: m') = topR m'). { destruct m'; [discriminate|reflexivity]. }
    split; [rewrite Et; exact H3|]. cbn [pend1 flat_map remE1 rw_new rw_i rw_slice skipn app] in *. exact H4.
Qed.

Lemma set_left_spec l n (a : list slotL) x b : Kd0 l n -> length a = l -> okL l x ->
  exists z, iterate_left_children (a ++ x :: b) n l = Ok (a ++ z :: b) /\ okL l z /\ remE0 z = entries n /\ slot_size z + 1 = node_size n.
Proof.
  intros Hn Hl Hx. destruct l as [|l].
  - destruct (Hleaf0 _ Hn) as (bb & es & ->). destruct a; [|discriminate]. destruct x; [|contradiction].
    exists (SLeaf es). cbn. auto.
  - destruct (Hkd0 _ _ Hn) as (bb & cs & -> & Hcs). destruct x as [|xc]; [contradiction|]. exists (SInner cs).
    cbn [iterate_left_children node_children read_inner bind]. unfold stack_set_inner, stack_inner. rewrite (nth_at a _ _ _ Hl). cbn [bind].
    rewrite (set_at_end a _ _ _ _ Hl). split; [reflexivity|]. split; [exact Hcs|]. split; [reflexivity|]. cbn [slot_size node_size]. lia.
Qed.
Lemma set_right_spec l (o : option node1) (a : list slotR) x b : match o with Some n => Kd1 l n | None => True end -> length a = l -> okR l x ->
  exists z, iterate_right_children (a ++ x :: b) o l = Ok (a ++ z :: b) /\ okR l z /\ remE1 z = fullE1 z /\
    fullE1 z = match o with Some n => entries n | None => [] end.
Proof.
  intros Hn Hl Hx. destruct l as [|l].
  - destruct a; [|discriminate]. destruct x; [|contradiction]. destruct o as [n|].
    + destruct (Hleaf1 _ Hn) as (bb & es & ->). exists (SLeaf (rw_new es)). cbn. auto.
    + exists (SLeaf (rw_new [])). cbn. auto.
  - destruct x as [|xc]; [contradiction|]. unfold iterate_right_children. unfold stack_set_inner, stack_inner. rewrite (nth_at a _ _ _ Hl). cbn [bind].
    destruct o as [n|].
    + destruct (Hkd1 _ _ Hn) as (bb & cs & -> & Hcs). exists (SInner (rw_new cs)). cbn [node_children read_inner bind].
      rewrite (set_at_end a _ _ _ _ Hl). split; [reflexivity|]. split; [split; [cbn; lia|exact Hcs]|]. split; reflexivity.
    + exists (SInner (rw_new [])). cbn [bind]. rewrite (set_at_end a _ _ _ _ Hl). split; [reflexivity|]. split; [split; [cbn; lia|constructor]|]. split; reflexivity.
Qed.

Definition remP (x : slot (list E1) (list node1)) : list E1 := match x with SLeaf es => es | SInner cs => flat_map entries cs end.
Definition okP (k : nat) (x : slot (list E1) (list node1)) : Prop :=
  match k, x with 0, SLeaf _ => True | S k, SInner cs => Forall (Kd1 k) cs | _, _ => False end.

Lemma rw_ok_rest k r : rw_ok k r -> Forall (Kd1 k) (skipn (rw_i r) (rw_slice r)).
Proof.
  intros [_ Hr]. apply Forall_forall. intros x Hx. rewrite Forall_forall in Hr. apply Hr.
  rewrite <- (firstn_skipn (rw_i r)). apply in_or_app. auto.
Qed.
Lemma remainder_inner_spec k (s : list slotR) : oks okR (S k) s ->
  exists sr, remainder_inner s = Ok sr /\ oks okP (S k) sr /\ flat_map remP sr = pend1 s.
Proof.
  revert k; induction s as [|y s IH]; intros k; [intros _; exists []; repeat split|]. intros [Hy Hs].
  destruct y as [|r]; [contradiction|]. destruct (IH _ Hs) as (sr & E & H1 & H2). cbn [remainder_inner].
  unfold rw_remainder. destruct Hy as [Hi Hy]. destruct (Nat.ltb_spec (length (rw_slice r)) (rw_i r)); [lia|]. cbn [bind].
  rewrite E. cbn [bind]. eexists; split; [reflexivity|]. split; [split; [|exact H1]|].
  - apply rw_ok_rest. split; assumption.
  - cbn [flat_map remP]. rewrite H2. reflexivity.
Qed.
Lemma remainder_spec (s : list slotR) : s <> [] -> oks okR 0 s ->
  exists sr, remainder_stack s = Ok sr /\ oks okP 0 sr /\ flat_map remP sr = pend1 s.
Proof.
  destruct s as [|y s]; [congruence|]. intros _ [Hy Hs]. destruct y as [r|]; [|contradiction].
  destruct (remainder_inner_spec _ _ Hs) as (sr & E & H1 & H2). cbn [remainder_stack].
  unfold rw_remainder. cbn in Hy. rewrite Hy. cbn [Nat.ltb Nat.leb bind].
  destruct (Nat.ltb_spec (length (rw_slice r)) 0); [lia|]. cbn [bind]. rewrite E. cbn [bind]. eexists; split; [reflexivity|].
  split; [split; [exact I|exact H1]|]. cbn [flat_map remP]. rewrite H2. cbn [pend1 flat_map remE1]. rewrite Hy. reflexivity.
Qed.

Definition midof {X} (w : bool) (x : X) (b : list X) : list X := if w then x :: b else [x].
Definition restof {X} (w : bool) (b : list X) : list X := if w then [] else b.
Lemma mid_rest {X} w (x : X) b : midof w x b ++ restof w b = x :: b.
Proof. destruct w; cbn; [now rewrite app_nil_r|reflexivity]. Qed.
Lemma on_sub_split {X A} (a : list X) x b level w (g : list X -> res (A * list X)) : length a = level ->
  on_sub (a ++ x :: b) level w g = let* (r, m) := g (midof w x b) in Ok (r, a ++ m ++ restof w b).
Proof.
  intros H. destruct w; cbn [midof restof].
  - rewrite on_sub_whole by exact H. destruct (g (x :: b)) as [[? ?]| | |]; cbn [bind]; now rewrite ?app_nil_r.
  - now apply on_sub_one.
Qed.

Notation emptyL := (Forall (fun x : slotL => remE0 x = [])).
Lemma pend0_app a b : pend0 (a ++ b) = pend0 a ++ pend0 b.
Proof. apply flat_map_app. Qed.
Lemma pend1_app a b : pend1 (a ++ b) = pend1 a ++ pend1 b.
Proof. apply flat_map_app. Qed.
Lemma pend0_empty s : emptyL s -> pend0 s = [].
Proof. clear. unfold pend0. induction 1 as [|x s Hx _ IH]; cbn; [reflexivity|]. now rewrite Hx, IH. Qed.
Lemma weightL_app a b : weightL (a ++ b) = weightL a + weightL b.
Proof. now rewrite map_app, list_sum_app. Qed.

Definition next_inv (L : list slotL) (R : list slotR) : Prop :=
  oks okL 0 L /\ oks okR 0 R /\ 2 <= length L /\ 2 <= length R /\ linked L R.

(** What a right-hand stack handed out with [e] must be. *)
Definition handed (e : E0) (sr : @tree_stack B1 K1 V1) : Prop := oks okP 0 sr /\ fine e (flat_map remP sr).

(** What is found from the current level up is fine. *)
Lemma fine_now x L' y R' : linked (x :: L') (y :: R') -> rewound (x :: L') (y :: R') ->
  forall e, In e (match R' with [] => pend0 (x :: L') | _ => remE0 x end) -> fine e (pend1 (y :: R')).
Proof.
  intros Hl Hr e He. destruct L' as [|x2 L']; [|destruct R' as [|y2 R']].
  - cbn [rewound] in Hr. rewrite Hr. apply fine_all.
  - cbn [rewound] in Hr. rewrite Hr. apply fine_all.
  - cbn [rewound] in Hr. destruct Hl as [Hf _].
    change (pend1 (y :: y2 :: R')) with (remE1 y ++ pend1 (y2 :: R')). rewrite Hr. apply Hf. exact He.
Qed.

Lemma single_full y y' l : okR (S l) y -> okR (S l) y' -> topR [y'] = topR [y] -> fullE1 y' = fullE1 y.
Proof. destruct y, y'; cbn; try contradiction. intros _ _ [= ->]. reflexivity. Qed.

Lemma topR_cons y s : s <> [] -> topR (y :: s) = topR s.
Proof. destruct s; [congruence|reflexivity]. Qed.
Lemma topR_app a s : s <> [] -> topR (a ++ s) = topR s.
Proof. destruct s; [congruence|]. intros _. apply top_full_app. Qed.
Lemma topR_mid m m' r : m <> [] -> m' <> [] -> topR m' = topR m -> topR (m' ++ r) = topR (m ++ r).
Proof. destruct r; intros H1 H2 H; [now rewrite !app_nil_r|]. now rewrite !topR_app. Qed.


Lemma linked_replace l x L y R x' Ln mid' : linked (x :: L) (y :: R) -> okR (S l) y -> length Ln = length L ->
  (R <> [] -> Ln = L /\ forall e, In e (remE0 x') -> In e (remE0 x)) ->
  oks okR (S l) mid' -> length mid' = length (midof (length L =? 0) y R) -> topR mid' = topR (midof (length L =? 0) y R) ->
  linked (x' :: Ln) (mid' ++ restof (length L =? 0) R).
Proof.
  intros Hl Hy El Hx Hm Elm Ht.
  assert (Htop : topR (mid' ++ restof (length L =? 0) R) = Some [root1]).
  { rewrite (topR_mid (midof (length L =? 0) y R)), mid_rest; [eapply linked_topR; exact Hl| | |exact Ht].
    - now destruct (length L =? 0).
    - destruct mid'; [|discriminate]. destruct (length L =? 0); discriminate. }
  destruct L as [|x2 L].
  - apply linked_top; [left|exact Htop]. cbn [length]. destruct Ln; [cbn; lia|discriminate].
  - cbn [length] in *. change (S (length L) =? 0) with false in *. cbn [midof restof length] in *. destruct mid' as [|y' [|? ?]]; try discriminate. clear Elm. cbn [app] in *.
    destruct R as [|y2 R]; [apply linked_top; [right; cbn; lia|exact Htop]|].
    destruct Hx as [-> Hx]; [discriminate|]. destruct Hl as [Hf Hl]. split; [|exact Hl].
    intros e He. destruct Hm as [Hy' _]. rewrite (single_full y y' l Hy Hy' Ht). auto.
Qed.

Ltac kill_bool w := let H := fresh in (assert (H : w = true) by reflexivity) || (assert (H : w = false) by reflexivity); clearbody w; destruct w; try discriminate H; clear H.

Lemma loop_spec fuel Lo Lc Ro Rc : length Lo = length Ro -> emptyL Lo -> oks okL 0 (Lo ++ Lc) -> oks okR 0 (Ro ++ Rc) ->
  Lc <> [] -> Rc <> [] -> 2 <= length (Lo ++ Lc) -> 2 <= length (Ro ++ Rc) -> linked Lc Rc -> rewound Lc Rc ->
  2 * weightL (Lo ++ Lc) + Nat.min (length Lc) (length Rc) <= fuel ->
  exists o L' R', left_join_loop f fuel (length Lo) (Lo ++ Lc, Ro ++ Rc) = Ok (o, (L', R')) /\ next_inv L' R' /\
  pend0 L' = tl (pend0 Lc) /\
  match pend0 Lc with
  | [] => o = None
  | e :: _ => exists sr, o = Some (e, sr) /\ handed e sr
  end.
Proof.
  revert Lo Lc Ro Rc; induction fuel as [|fuel IH]; intros Lo Lc Ro Rc Hlen Hlow HoL HoR HLc HRc H2L H2R Hlink Hrew Hfuel.
  { destruct Lc; [congruence|]. destruct Rc; [congruence|]. cbn [length] in Hfuel. lia. }
  destruct Lc as [|x L']; [congruence|]. destruct Rc as [|y R']; [congruence|]. clear HLc HRc.
  assert (HtopR : topR (y :: R') = Some [root1]) by (eapply linked_topR; exact Hlink).
  (* ascending *)
  assert (Hup : forall x' Lt, oks okL 0 (Lo ++ x' :: Lt) -> length Lt = length L' -> remE0 x' = [] ->
    (R' = [] -> emptyL Lt) -> (R' <> [] -> Lt = L') -> pend0 (x' :: Lt) = pend0 (x :: L') ->
    weightL (Lo ++ x' :: Lt) <= weightL (Lo ++ x :: L') ->
    exists o L1 R1,
      (if length Lo + 1 =? Nat.min (length (Lo ++ x' :: Lt)) (length (Ro ++ y :: R')) then Ok (None, (Lo ++ x' :: Lt, Ro ++ y :: R'))
       else let* (_, rr) := on_sub (Ro ++ y :: R') (length Lo + 1) (length Lo + 1 + 1 =? length (Lo ++ x' :: Lt))
                                 (fun s => let* s := rewind_inner s in Ok (tt, s)) in
            left_join_loop f fuel (length Lo + 1) (Lo ++ x' :: Lt, rr)) = Ok (o, (L1, R1)) /\
      next_inv L1 R1 /\ pend0 L1 = tl (pend0 (x :: L')) /\
      match pend0 (x :: L') with [] => o = None | e :: _ => exists sr, o = Some (e, sr) /\ handed e sr end).
  { intros x' Lt HoL' El Hx' Hc1 Hc2 Hp Hw. rewrite !app_length in *. cbn [length] in *.
    destruct (Nat.eqb_spec (length Lo + 1) (Nat.min (length Lo + S (length Lt)) (length Ro + S (length R')))) as [Em|Em].
    - assert (Hempty : emptyL (x' :: Lt)).
      { constructor; [exact Hx'|]. destruct R'; [auto|]. destruct Lt; [constructor|]. cbn [length] in Em. lia. }
      assert (Hpe : pend0 (x :: L') = []) by (rewrite <- Hp; now apply pend0_empty).
      rewrite Hpe. exists None, (Lo ++ x' :: Lt), (Ro ++ y :: R'). split; [reflexivity|].
      assert (Hall : emptyL (Lo ++ x' :: Lt)) by (apply Forall_app; auto).
      split; [|split; [now apply pend0_empty|reflexivity]].
      split; [exact HoL'|]. split; [exact HoR|]. rewrite !app_length. cbn [length]. split; [lia|]. split; [lia|].
      apply linked_empty; [exact Hall|]. now rewrite topR_app.
    - destruct R' as [|y2 R2]; [cbn [length] in Em; lia|]. rewrite (Hc2 ltac:(discriminate)) in *. clear Hc1 Hc2 El Lt.
      destruct L' as [|x2 L2]; [cbn [length] in Em; lia|]. cbn [length] in *.
      replace (Ro ++ y :: y2 :: R2) with ((Ro ++ [y]) ++ y2 :: R2) in * by (now rewrite <- app_assoc).
      replace (Lo ++ x' :: x2 :: L2) with ((Lo ++ [x']) ++ x2 :: L2) in * by (now rewrite <- app_assoc).
      assert (Elo : length (Lo ++ [x']) = length Lo + 1) by (rewrite app_length; reflexivity).
      assert (Ero : length (Ro ++ [y]) = length Lo + 1) by (rewrite app_length, Hlen; reflexivity).
      rewrite on_sub_split by exact Ero.
      assert (Ew : (length Lo + 1 + 1 =? length Lo + S (S (length L2))) = (length L2 =? 0)).
      { destruct (Nat.eqb_spec (length Lo + 1 + 1) (length Lo + S (S (length L2)))), (Nat.eqb_spec (length L2) 0); auto; lia. }
      rewrite Ew. set (w := length L2 =? 0) in *. apply oks_app in HoR as [HoR1 HoR2]. rewrite Ero in HoR2.
      replace (0 + (length Lo + 1)) with (S (length Lo)) in HoR2 by lia.
      rewrite <- (mid_rest w) in HoR2. apply oks_app in HoR2 as [Hmid Hrest].
      destruct (rewind_spec (length Lo) (midof w y2 R2)) as (mid' & E & H1 & H2 & H3 & H4); [now destruct w|exact Hmid|].
      rewrite E. cbn [bind]. rewrite <- Elo.
      assert (Hm' : mid' <> []) by (destruct mid'; [destruct w; discriminate|discriminate]).
      destruct Hlink as [_ Hlink].
      assert (Hlink' : linked (x2 :: L2) (mid' ++ restof w R2)).
      { apply (linked_replace (length Lo) x2 L2 y2 R2); auto. destruct w; apply Hmid. }
      destruct (IH (Lo ++ [x']) (x2 :: L2) (Ro ++ [y]) (mid' ++ restof w R2)) as (o & L1 & R1 & G1 & G2 & G3 & G4).
      + now rewrite Elo, Ero.
      + apply Forall_app. auto.
      + exact HoL'.
      + apply oks_app. split; [exact HoR1|]. rewrite Ero. replace (0 + (length Lo + 1)) with (S (length Lo)) by lia.
        apply oks_app. split; [exact H1|]. rewrite H2. exact Hrest.
      + discriminate.
      + destruct mid'; [congruence|discriminate].
      + rewrite !app_length. cbn [length]. lia.
      + rewrite !app_length. cbn [length]. destruct mid'; [congruence|]. cbn [length]. lia.
      + exact Hlink'.
      + assert (Htop2 : topR (y2 :: R2) = Some [root1]) by exact HtopR.
        destruct L2 as [|x3 L3].
        { kill_bool w. cbn [midof restof] in *. rewrite app_nil_r. rewrite Htop2 in H4. cbn in H4. rewrite app_nil_r in H4.
          injection H4 as H4. exact H4. }
        kill_bool w. cbn [midof restof length] in *. destruct mid' as [|y' [|? ?]]; try discriminate. cbn [app rewound].
        destruct R2 as [|y3 R3].
        { rewrite Htop2 in H4. cbn in H4. rewrite app_nil_r in H4. injection H4 as H4. cbn. rewrite H4, !app_nil_r. reflexivity. }
        destruct Hmid as [Hy2 _], H1 as [Hy' _]. rewrite (single_full y2 y' _ Hy2 Hy' H3).
        cbn [top_full option_map slot_full pend1 flat_map] in H4. rewrite app_nil_r in H4. injection H4 as H4. rewrite H4.
        destruct y2; [contradiction|reflexivity].
      + assert (El : length (mid' ++ restof w R2) = S (length R2)).
        { rewrite app_length, H2, <- app_length, mid_rest. reflexivity. }
        rewrite El. cbn [length]. lia.
      + exists o, L1, R1. split; [exact G1|]. split; [exact G2|].
        assert (Epp : pend0 (x2 :: L2) = pend0 (x :: x2 :: L2)). { rewrite <- Hp. cbn [pend0 flat_map]. rewrite Hx'. reflexivity. }
        rewrite <- Epp. auto. }
  cbn [left_join_loop]. destruct (length Lo) as [|l] eqn:Elo.
  - (* level 0 *)
    destruct Lo; [|discriminate]. destruct Ro; [|discriminate]. cbn [app length] in *.
    destruct L' as [|x2 L2]; [cbn in H2L; lia|]. destruct R' as [|y2 R2]; [cbn in H2R; lia|].
    destruct x as [es|]; [|destruct HoL; contradiction]. cbn [stack_leaf nth_error bind]. destruct es as [|e es].
    + cbn [Nat.add] in Hup. apply (Hup (SLeaf []) (x2 :: L2)); auto; discriminate.
    + unfold stack_set_leaf. cbn [stack_leaf nth_error bind set_nth].
      destruct (remainder_spec (y :: y2 :: R2)) as (sr & E & H1 & H2); [discriminate|exact HoR|]. rewrite E. cbn [bind].
      eexists _, _, _. split; [reflexivity|]. cbn [pend0 flat_map remE0 app tl]. split; [|split; [reflexivity|]].
      * split; [exact HoL|]. split; [exact HoR|]. split; [exact H2L|]. split; [exact H2R|].
        destruct Hlink as [Hf Hl]. split; [|exact Hl]. intros e' He'. apply Hf. cbn in *. auto.
      * exists sr. split; [reflexivity|]. split; [exact H1|]. rewrite H2.
        apply (fine_now _ _ _ _ Hlink Hrew). cbn. auto.
  - (* level S l *)
    assert (HoL' := HoL). assert (HoR' := HoR). apply oks_app in HoL' as [HoL1 HoL2], HoR' as [HoR1 HoR2]. rewrite Elo in HoL2. rewrite <- Hlen in HoR2. cbn [Nat.add] in HoL2, HoR2.
    assert (EwL : (S l + 1 =? length (Ro ++ y :: R')) = (length R' =? 0)).
    { rewrite app_length. cbn [length]. rewrite <- Hlen. destruct (Nat.eqb_spec (S l + 1) (S l + S (length R'))), (Nat.eqb_spec (length R') 0); auto; lia. }
    rewrite EwL. set (wL := length R' =? 0) in *. rewrite on_sub_split by exact Elo.
    rewrite <- (mid_rest wL) in HoL2. apply oks_app in HoL2 as [HmidL HrestL].
    destruct (left_search_spec l (midof wL x L') HmidL) as (o & midL & EL & HL1 & HL2 & HL3). rewrite EL. cbn [bind].
    assert (HmL : exists x' Lt, midL = midof wL x' Lt /\ length (Lt ++ restof wL L') = length L' /\ (wL = false -> Lt = [])).
    { destruct midL as [|x' Lt]; [destruct wL; discriminate|]. exists x', Lt. destruct wL; cbn in *.
      - rewrite app_nil_r. split; [reflexivity|]. split; [lia|discriminate].
      - destruct Lt; [|discriminate]. split; [reflexivity|]. split; [reflexivity|]. auto. }
    destruct HmL as (x' & Lt & EmL & ElL & HLt).
    assert (EL2 : midL ++ restof wL L' = x' :: Lt ++ restof wL L').
    { subst midL. destruct wL; [reflexivity|]. rewrite HLt by reflexivity. reflexivity. }
    assert (HpL : pend0 (x :: L') = pend0 (midof wL x L') ++ pend0 (restof wL L')) by (now rewrite <- pend0_app, mid_rest).
    assert (HwLe : weightL (x :: L') = weightL (midof wL x L') + weightL (restof wL L')) by (now rewrite <- weightL_app, mid_rest).
    assert (HoLn : oks okL 0 (Lo ++ midL ++ restof wL L')).
    { apply oks_app. split; [exact HoL1|]. rewrite Elo. apply oks_app. split; [exact HL1|]. rewrite HL2. exact HrestL. }
    destruct o as [n|].
    + destruct HL3 as (Hn & Hpe & Hwe).
      assert (EwR : (S l + 1 =? length (Lo ++ midL ++ restof wL L')) = (length L' =? 0)).
      { rewrite EL2, app_length, Elo. cbn [length]. rewrite ElL. destruct (Nat.eqb_spec (S l + 1) (S l + S (length L'))), (Nat.eqb_spec (length L') 0); auto; lia. }
      rewrite EwR. set (wR := length L' =? 0) in *. rewrite on_sub_split by (symmetry; exact Hlen).
      rewrite <- (mid_rest wR) in HoR2. apply oks_app in HoR2 as [HmidR HrestR].
      destruct (right_search_spec (tbn n) l (midof wR y R') HmidR) as (m & midR & ER & HR1 & HR2 & HR3 & HR4). rewrite ER. cbn [bind].
      destruct (app_last_ _ _ Elo) as (Lo1 & xl & -> & ElLo). destruct (app_last_ Ro l (eq_sym Hlen)) as (Ro1 & yl & -> & ElRo).
      rewrite <- !app_assoc. cbn [app].
      assert (Hxl : okL l xl). { apply oks_app in HoL1 as [_ [H _]]. rewrite ElLo in H. exact H. }
      assert (Hyl : okR l yl). { apply oks_app in HoR1 as [_ [H _]]. rewrite ElRo in H. exact H. }
      destruct (set_left_spec l n Lo1 xl (midL ++ restof wL L') Hn ElLo Hxl) as (zL & EzL & HzL1 & HzL2 & HzL3).
      rewrite EzL. cbn [bind].
      destruct (set_right_spec l m Ro1 yl (midR ++ restof wR R')) as (zR & EzR & HzR1 & HzR2 & HzR3); [destruct m; tauto|exact ElRo|exact Hyl|].
      rewrite EzR. cbn [bind].
      apply Forall_app in Hlow as [Hlow1 _].
      assert (HmR : midR <> []) by (destruct midR; [destruct wR; discriminate|discriminate]).
      assert (HpR : pend1 (y :: R') = pend1 (midof wR y R') ++ pend1 (restof wR R')) by (now rewrite <- pend1_app, mid_rest).
      assert (HpLe : pend0 (x :: L') = entries n ++ pend0 (midL ++ restof wL L')).
      { rewrite HpL, Hpe, pend0_app, <- app_assoc. reflexivity. }
      assert (Hfine : forall e, In e (entries n) -> fine e (fullE1 zR ++ pend1 (midR ++ restof wR R'))).
      { intros e He. assert (Hnow : fine e (pend1 (y :: R'))).
        { apply (fine_now _ _ _ _ Hlink Hrew). destruct R' as [|y2 R2].
          - rewrite HpLe. apply in_or_app. now left.
          - kill_bool wL. cbn [midof pend0 flat_map] in Hpe. rewrite app_nil_r in Hpe. rewrite Hpe. apply in_or_app. now left. }
        rewrite HpR in Hnow. rewrite HzR3, pend1_app, app_assoc. eapply (fine_shrink _ n e); [exact Hn|exact He| |exact Hnow].
        apply shrink_tail. destruct m as [m|]; [tauto|]. destruct HR4 as [G1 G2]. rewrite G2. exact G1. }
      assert (Hlink' : linked (x' :: Lt ++ restof wL L') (midR ++ restof wR R')).
      { apply (linked_replace l x L' y R'); auto.
        - destruct wR; apply HmidR.
        - intros HR. assert (EwL' : wL = false). { unfold wL. destruct R'; [congruence|reflexivity]. }
          rewrite (HLt EwL'). rewrite EwL' in *. split; [reflexivity|]. cbn [midof pend0 flat_map] in Hpe. subst midL.
          cbn [midof pend0 flat_map] in Hpe. rewrite !app_nil_r in Hpe. intros e He. rewrite Hpe. apply in_or_app. now right. }
      assert (Elen : length (midL ++ restof wL L') = S (length L')) by (rewrite EL2; cbn [length]; now rewrite ElL).
      assert (ElenR : length (midR ++ restof wR R') = S (length R')) by (rewrite app_length, HR2, <- app_length, mid_rest; reflexivity).
      rewrite <- ElLo.
      destruct (IH Lo1 (zL :: midL ++ restof wL L') Ro1 (zR :: midR ++ restof wR R')) as (o & L1 & R1 & G1 & G2 & G3 & G4).
      * now rewrite ElLo, ElRo.
      * exact Hlow1.
      * rewrite <- app_assoc in HoLn. cbn [app] in HoLn. apply oks_app in HoLn as [F1 [F2 F3]]. apply oks_app. split; [exact F1|].
        split; [now rewrite ElLo|exact F3].
      * apply oks_app in HoR1 as [F1 _]. apply oks_app. split; [exact F1|]. rewrite ElRo. split; [exact HzR1|].
        apply oks_app. split; [exact HR1|]. rewrite HR2. exact HrestR.
      * discriminate.
      * discriminate.
      * rewrite app_length. cbn [length]. lia.
      * rewrite app_length. cbn [length]. lia.
      * rewrite EL2. cbn [linked]. destruct (midR ++ restof wR R') as [|yy RR] eqn:EyR; [destruct midR; [congruence|discriminate]|].
        split; [|exact Hlink']. intros e He. apply Hfine. now rewrite <- HzL2.
      * rewrite EL2. cbn [rewound]. destruct (midR ++ restof wR R') as [|yy RR] eqn:EyR; [destruct midR; [congruence|discriminate]|].
        exact HzR2.
      * rewrite !weightL_app in *. cbn [length] in *.
        change (weightL (zL :: midL ++ restof wL L')) with (slot_size zL + weightL (midL ++ restof wL L')).
        rewrite weightL_app.
        rewrite Elen, ElenR. rewrite HwLe in Hfuel. lia.
      * exists o, L1, R1. split; [exact G1|]. split; [exact G2|].
        assert (Epp : pend0 (zL :: midL ++ restof wL L') = pend0 (x :: L')).
        { rewrite HpLe. change (pend0 (zL :: midL ++ restof wL L')) with (remE0 zL ++ pend0 (midL ++ restof wL L')). now rewrite HzL2. }
        rewrite <- Epp. auto.
    + destruct HL3 as (Hpe & Hemp & Hwe). rewrite EL2 in HoLn |- *.
      assert (Hx' : remE0 x' = []). { subst midL. destruct wL; inversion Hemp; assumption. }
      replace (length (Lo ++ x :: L')) with (length (Lo ++ x' :: Lt ++ restof wL L'))
        by (rewrite (app_length Lo (x' :: _)), (app_length Lo (x :: L')); cbn [length]; now rewrite ElL).
      apply (Hup x' (Lt ++ restof wL L')); auto.
      * intros ->. kill_bool wL. cbn [restof]. rewrite app_nil_r. subst midL. now inversion Hemp.
      * intros HR. assert (EwL' : wL = false). { unfold wL. destruct R'; [congruence|reflexivity]. }
        rewrite (HLt EwL'), EwL'. reflexivity.
      * rewrite <- EL2, pend0_app, (pend0_empty _ Hemp), HpL, Hpe. reflexivity.
      * rewrite <- EL2. rewrite !weightL_app. rewrite HwLe. lia.
Qed.
End Loop.

(** *** Calls of [next] *)
Lemma iterates_step {S A} (next : S -> res (option A * S)) s x s' l :
  next s = Ok (Some x, s') -> iterates next s' l -> iterates next s (x :: l).
Proof.
  intros Hn Hi [|n]; [reflexivity|]. cbn [calls]. rewrite Hn. cbn [bind]. rewrite (Hi n). cbn [bind map app firstn]. do 2 f_equal.
  rewrite !firstn_app. f_equal. rewrite map_length. change (repeat None (Datatypes.S n)) with (@None A :: repeat None n).
  clear. generalize (n - length l) as m, (Nat.le_sub_l n (length l)). intros m Hm. revert m Hm. induction n as [|n IH]; intros m Hm.
  - replace m with 0 by lia. reflexivity.
  - destruct m as [|m]; [reflexivity|]. cbn [repeat firstn]. f_equal. apply IH. lia.
Qed.

Section Top.
Context {B0 B1 K0 K1 V0 V1 Q0 Q1 : Type} (f : JoinFilter B0 B1 Q0 Q1).
Notation node0 := (node B0 K0 V0).
Notation node1 := (node B1 K1 V1).
Notation E0 := (K0 * V0)%type.
Notation E1 := (K1 * V1)%type.
Context (Kd0 : nat -> node0 -> Prop) (Kd1 : nat -> node1 -> Prop).
Context (Hkd0 : kd_spec Kd0) (Hkd1 : kd_spec Kd1).
Context (Hleaf0 : forall n, Kd0 0 n -> exists b es, n = Node b (CLeaf es)).
Context (Hleaf1 : forall n, Kd1 0 n -> exists b es, n = Node b (CLeaf es)).
Context (a : rtree B0 K0 V0) (b : rtree B1 K1 V1) (Ha : Kd0 (fst a) (snd a)) (Hb : Kd1 (fst b) (snd b)).
Context (fine : E0 -> list E1 -> Prop).
Context (fine_all : forall e, fine e (contents b)).
Context (fine_shrink : forall k (n : node0) e l l', Kd0 k n -> In e (entries n) ->
  shrink (fun m : node1 => jtest_bounds f (node_bounds n) (node_bounds m)) (fun c => exists k, Kd1 k c) l l' -> fine e l -> fine e l').

Lemma left_next_spec L R : next_inv Kd0 Kd1 (snd b) fine L R ->
  exists o L' R', left_join_next f (L, R) = Ok (o, (L', R')) /\ next_inv Kd0 Kd1 (snd b) fine L' R' /\ pend0 L' = tl (pend0 L) /\
  match pend0 L with [] => o = None | e :: _ => exists sr, o = Some (e, sr) /\ handed Kd1 fine e sr end.
Proof.
  intros (H1 & H2 & H3 & H4 & H5). unfold left_join_next. cbn [fst snd].
  destruct (Nat.eqb_spec (Nat.min (length L) (length R)) 0); [lia|].
  apply (loop_spec f Kd0 Kd1 Hkd0 Hkd1 Hleaf0 Hleaf1 (snd b) fine fine_all fine_shrink _ [] L [] R); auto.
  - destruct L; [cbn in H3; lia|discriminate].
  - destruct R; [cbn in H4; lia|discriminate].
  - destruct L as [|x [|x2 L]]; cbn [length] in *; [lia|lia|]. destruct R as [|y [|y2 R]]; cbn [length] in *; [lia|lia|]. cbn [rewound].
    destruct H2 as [Hy _]. destruct y as [r|]; [|contradiction]. cbn in *. now rewrite Hy.
  - unfold left_join_fuel. cbn [fst app]. lia.
Qed.

Lemma left_iterates L R : next_inv Kd0 Kd1 (snd b) fine L R ->
  exists l, iterates (left_join_next f) (L, R) l /\ map fst l = pend0 L /\ Forall (fun p => handed Kd1 fine (fst p) (snd p)) l.
Proof.
  remember (pend0 L) as es eqn:E. revert L R E. induction es as [|e es IH]; intros L R E Hinv.
  - exists []. split; [|split; [reflexivity|constructor]].
    apply (iterates_sim _ (fun s l => l = [] /\ exists L R, s = (L, R) /\ next_inv Kd0 Kd1 (snd b) fine L R /\ pend0 L = [])).
    + intros s l (-> & L1 & R1 & -> & Hi & Hp). destruct (left_next_spec L1 R1 Hi) as (o & L' & R' & E' & Hi' & Hp' & Ho).
      rewrite Hp in *. subst o. exists (L', R'). split; [exact E'|]. split; [reflexivity|]. exists L', R'. auto.
    + split; [reflexivity|]. exists L, R. auto.
  - destruct (left_next_spec L R Hinv) as (o & L' & R' & E' & Hi' & Hp' & Ho). rewrite <- E in *. destruct Ho as (sr & -> & Hh).
    destruct (IH L' R') as (l & H1 & H2 & H3); [symmetry; exact Hp'|exact Hi'|].
    exists ((e, sr) :: l). split; [eapply iterates_step; eassumption|]. split; [cbn; now rewrite H2|]. constructor; assumption.
Qed.

Lemma stack_top_set {L I} (d : L) (i v : I) h :
  stack_set_inner (stack_new d (repeat i (h + 1))) (h + 1) v = Ok (SLeaf d :: map SInner (repeat i h) ++ [SInner v]).
Proof.
  unfold stack_set_inner, stack_inner, stack_new. rewrite repeat_app, map_app. cbn [repeat map].
  change (SLeaf d :: map SInner (repeat i h) ++ [SInner i]) with ((SLeaf d :: map SInner (repeat i h)) ++ [SInner i]).
  assert (El : length (SLeaf d :: map SInner (repeat i h)) = h + 1) by (cbn; rewrite map_length, repeat_length; lia).
  rewrite (nth_at _ _ _ _ El). cbn [bind]. rewrite (set_at_end _ _ _ _ _ El). reflexivity.
Qed.

Lemma linked_init root L R x : Forall (fun x => remE0 x = []) L ->
  top_full (L := rewindable E1) (rw_slice (T := node1)) R = Some [root] -> linked (B0 := B0) root fine (L ++ [x]) R.
Proof.
  intros H. revert R; induction H as [|y L Hy H IH]; intros R Ht; cbn [linked app]; [exact Ht|].
  destruct (L ++ [x]) as [|x2 L2] eqn:E; [now destruct L|]. destruct R as [|r [|r2 R]]; [exact Ht|exact Ht|].
  split; [|apply IH; exact Ht]. intros e He. rewrite Hy in He. destruct He.
Qed.

Lemma left_join_full : exists s l, rtree_left_join a b = Ok s /\ iterates (left_join_next f) s l /\
  map fst l = contents a /\ Forall (fun p => handed Kd1 fine (fst p) (snd p)) l.
Proof.
  unfold rtree_left_join, left_join_new. rewrite stack_top_set. cbn [bind]. rewrite stack_top_set. cbn [bind].
  set (L := SLeaf [] :: map SInner (repeat [] (fst a)) ++ [SInner [snd a]]).
  set (R := SLeaf (rw_new []) :: map SInner (repeat (rw_new []) (fst b)) ++ [SInner (rw_new [snd b])]).
  assert (EL : L = (SLeaf [] :: map SInner (repeat [] (fst a))) ++ [SInner [snd a]]) by reflexivity.
  assert (ER : R = (SLeaf (rw_new []) :: map SInner (repeat (rw_new []) (fst b))) ++ [SInner (rw_new [snd b])]) by reflexivity.
  assert (Hempty : Forall (fun x : slot (list E0) (list node0) => remE0 x = []) (SLeaf [] :: map SInner (repeat [] (fst a)))).
  { constructor; [reflexivity|]. apply Forall_map. apply Forall_forall. intros c Hc. apply repeat_spec in Hc as ->. reflexivity. }
  destruct (left_iterates L R) as (l & H1 & H2 & H3).
  - assert (Hl : length L = fst a + 2). { unfold L. cbn [length]. rewrite app_length, map_length, repeat_length. cbn. lia. }
    assert (Hr : length R = fst b + 2). { unfold R. cbn [length]. rewrite app_length, map_length, repeat_length. cbn. lia. }
    split; [|split; [|split; [lia|split; [lia|]]]].
    + split; [exact I|]. apply oks_app. rewrite map_length, repeat_length. cbn [Nat.add]. split.
      * clear. generalize 0. generalize (fst a). intros m. induction m as [|m IH]; intros k; cbn; [exact I|]. split; [constructor|]. apply IH.
      * cbn. split; [|exact I]. constructor; [exact Ha|constructor].
    + split; [reflexivity|]. apply oks_app. rewrite map_length, repeat_length. cbn [Nat.add]. split.
      * clear. generalize 0. generalize (fst b). intros m. induction m as [|m IH]; intros k; cbn; [exact I|]. split; [split; [cbn; lia|constructor]|]. apply IH.
      * cbn. split; [|exact I]. split; [cbn; lia|]. constructor; [exact Hb|constructor].
    + rewrite EL.
      apply linked_init; [exact Hempty|]. rewrite ER.
      rewrite top_full_app. reflexivity.
  - exists (L, R), l. split; [reflexivity|]. split; [exact H1|]. split; [|exact H3]. rewrite H2, EL.
    rewrite pend0_app, (pend0_empty _ Hempty). cbn. now rewrite !app_nil_r.
Qed.
End Top.

Lemma okP_stack_ok {B K V} (Kd : nat -> node B K V -> Prop) (sr : @tree_stack B K V) :
  (forall k n, Kd k n -> kinded k n) -> oks (okP Kd) 0 sr -> stack_ok sr.
Proof.
  intros HK. assert (G : forall k i x, oks (okP Kd) k sr -> nth_error sr i = Some x -> slot_ok (k + i) x).
  { induction sr as [|y sr IH]; intros k i x Hs Hx; [destruct i; discriminate|]. destruct Hs as [Hy Hs]. destruct i as [|i]; cbn in Hx.
    - injection Hx as ->. rewrite Nat.add_0_r. destruct k, x; cbn in *; auto. eapply Forall_impl; [|exact Hy]. auto.
    - rewrite Nat.add_succ_r. exact (IH (S k) i x Hs Hx). }
  intros H i x Hx. exact (G 0 i x H Hx).
Qed.

Lemma sublist_refl {A} (l : list A) : sublist l l.
Proof. induction l; [constructor|now apply sub_take]. Qed.
Lemma sublist_nil {A} (l : list A) : sublist [] l.
Proof. induction l; constructor; auto. Qed.
Lemma sublist_app {A} (a b c d : list A) : sublist a b -> sublist c d -> sublist (a ++ c) (b ++ d).
Proof. intros H1 H2. induction H1; cbn; [exact H2|apply sub_skip; auto|apply sub_take; auto]. Qed.
Lemma sublist_trans {A} (a b c : list A) : sublist a b -> sublist b c -> sublist a c.
Proof.
  intros H1 H2. revert a H1. induction H2 as [|x b c H2 IH|x b c H2 IH]; intros a H1.
  - exact H1.
  - apply sub_skip. auto.
  - inversion H1; subst; [apply sub_skip; auto|apply sub_take; auto].
Qed.

Section LeftSpec.
Context {B0 B1 K0 K1 V0 V1 Q0 Q1 : Type} (brw0 : K0 -> Q0) (brw1 : K1 -> Q1) (qb0 : Q0 -> B0) (f : JoinFilter B0 B1 Q0 Q1).
Notation tk e := (fun kv : K1 * V1 => jtest_key f (brw0 (fst e)) (brw1 (fst kv))).

Section Lawful.
Context (P0 : Params B0 K0) (P1 : Params B1 K1) (cfg0 cfg1 : config) (ok0 : K0 -> Prop) (ok1 : K1 -> Prop).
Context (incl0 : B0 -> B0 -> Prop) (incl1 : B1 -> B1 -> Prop).
Context (HF : join_filter_lawful P0 P1 brw0 brw1 incl0 incl1 ok0 ok1 (jtest_bounds f) (jtest_key f)).
Context (Hqb : forall k, qb0 (brw0 k) = key_bounds P0 k).

Lemma good_kd {B K V} (P : Params B K) incl ok cfg : kd_spec (good (V := V) P incl ok cfg).
Proof.
  intros k n (lo & strict & Hw). destruct (wf_inv _ _ _ _ _ _ _ Hw) as (b & x & ->). exists b, x. split; [reflexivity|].
  rewrite wf_inner in Hw. destruct Hw as (_ & _ & Hcs). eapply Forall_impl; [|exact Hcs]. intros c [Hc _]. eexists _, _. exact Hc.
Qed.
Lemma good_leaf {B K V} (P : Params B K) incl ok cfg (n : node B K V) : good P incl ok cfg 0 n -> exists b es, n = Node b (CLeaf es).
Proof. intros (lo & strict & Hw). exact (wf_inv _ _ _ _ _ _ _ Hw). Qed.
Lemma good_kinded {B K V} (P : Params B K) incl ok cfg k (n : node B K V) : good P incl ok cfg k n -> kinded k n.
Proof. intros (lo & strict & Hw). eapply wf_kinded; exact Hw. Qed.

Lemma left_join_exact_good (a : rtree B0 K0 V0) (b : rtree B1 K1 V1) :
  (forall k, ok0 k -> incl0 (key_bounds P0 k) (key_bounds P0 k)) ->
  good P0 incl0 ok0 cfg0 (fst a) (snd a) -> good P1 incl1 ok1 cfg1 (fst b) (snd b) ->
  exists s l, rtree_left_join a b = Ok s /\ iterates (left_join_next f) s l /\ map fst l = contents a /\
    Forall (fun p => iterates (iter_next_with brw1 (joining_filter qb0 f (brw0 (fst (fst p))))) (snd p)
                       (filter (tk (fst p)) (contents b))) l.
Proof.
  intros HRefl Ga Gb. assert (Hra := Ga). destruct Hra as (lo0 & st0 & Hra).
  destruct (left_join_full f (good P0 incl0 ok0 cfg0) (good P1 incl1 ok1 cfg1) (good_kd _ _ _ _) (good_kd _ _ _ _) (good_leaf _ _ _ _) (good_leaf _ _ _ _)
    a b Ga Gb (fun e l => filter (tk e) l = filter (tk e) (contents b))) as (s & l & E & H1 & H2 & H3).
  - reflexivity.
  - intros k n e l l' Hn He Hs Hf. rewrite <- Hf. clear Hf. induction Hs as [l|x c y l [kc Hc] Hg _ IH]; [reflexivity|].
    rewrite IH. rewrite !filter_app.
    assert (Ec : filter (tk e) (entries c) = []).
    { destruct (filter (tk e) (entries c)) as [|kv r] eqn:Ef; [reflexivity|exfalso].
      assert (Hin : In kv (filter (tk e) (entries c))) by (rewrite Ef; now left). apply filter_In in Hin as [Hin Hk].
      destruct (good_cover _ _ _ _ _ _ Hn e He) as [G1 G2]. destruct (good_cover _ _ _ _ _ _ Hc kv Hin) as [G3 G4].
      rewrite (HF _ _ _ _ G1 G3 Hk G2 G4) in Hg. discriminate. }
    now rewrite Ec.
  - exists s, l. split; [exact E|]. split; [exact H1|]. split; [exact H2|].
    assert (Hok : Forall (fun e => ok0 (fst e)) (map fst l)) by (rewrite H2; exact (wf_ok _ _ _ _ _ _ _ Hra)).
    rewrite Forall_map in Hok. rewrite Forall_forall in *. intros [e sr] Hin. specialize (Hok _ Hin). destruct (H3 _ Hin) as [G1 G2].
    cbn [fst snd] in *. rewrite <- G2.
    assert (HL : filter_lawful P1 brw1 incl1 ok1 (test_bounds (joining_filter qb0 f (brw0 (fst e)))) (test_key (joining_filter qb0 f (brw0 (fst e))))).
    { intros b1 k1 Hk1 Hm Hi. cbn in *. apply (HF _ b1 (fst e) k1 Hok Hk1 Hm); [|exact Hi]. rewrite Hqb. apply HRefl, Hok. }
    replace (filter (tk e) (flat_map remP sr)) with (pending brw1 (joining_filter qb0 f (brw0 (fst e))) sr).
    + apply stack_iterates. eapply okP_stack_ok; [|exact G1]. intros k n. apply good_kinded.
    + clear - G1 HL. unfold pending. revert G1. generalize 0. induction sr as [|x sr IH]; intros k Hs; [reflexivity|].
      destruct Hs as [Hx Hs]. cbn [flat_map]. rewrite filter_app, (IH _ Hs). f_equal.
      destruct k as [|k], x as [es|cs]; cbn in Hx; try contradiction; [reflexivity|]. cbn [rest_of remP].
      induction Hx as [|c cs (lo & strict & Hw) _ IHc]; [reflexivity|]. cbn [flat_map]. rewrite filter_app, IHc. f_equal.
      unfold vis. cbn [test_bounds joining_filter]. destruct (jtest_bounds f (qb0 (brw0 (fst e))) (node_bounds c)) eqn:Eb.
      * exact (pruned_lawful brw1 _ P1 cfg1 ok1 incl1 _ _ _ _ HL Hw).
      * symmetry. exact (cover_prune brw1 _ P1 ok1 incl1 (node_bounds c) (entries c) HL (wf_rel _ _ _ _ _ _ _ Hw) (wf_ok _ _ _ _ _ _ _ Hw) Eb).
Qed.

Lemma left_join_exact (a : rtree B0 K0 V0) (b : rtree B1 K1 V1) :
  bounds_laws (bops P0) incl0 -> bounds_laws (bops P1) incl1 -> reachable P0 cfg0 ok0 a -> reachable P1 cfg1 ok1 b ->
  exists s l, rtree_left_join a b = Ok s /\ iterates (left_join_next f) s l /\ map fst l = contents a /\
    Forall (fun p => iterates (iter_next_with brw1 (joining_filter qb0 f (brw0 (fst (fst p))))) (snd p)
                       (filter (tk (fst p)) (contents b))) l.
Proof.
  intros L0 L1 Hra Hrb. apply (inv_cover _ _ _ incl0 _ L0) in Hra as [Hra _]. apply (inv_cover _ _ _ incl1 _ L1) in Hrb as [Hrb _].
  apply left_join_exact_good; [intros k _; apply (Spec.incl_refl _ _ L0)|eexists _, _; exact Hra|eexists _, _; exact Hrb].
Qed.
End Lawful.

Lemma kinded_kd {B K V} : kd_spec (fun k (n : node B K V) => kinded k n).
Proof. intros k [b [cs|es]] H; cbn in H; [|contradiction]. eauto. Qed.
Lemma kinded_leaf {B K V} (n : node B K V) : kinded 0 n -> exists b es, n = Node b (CLeaf es).
Proof. destruct n as [b [cs|es]]; cbn; [contradiction|eauto]. Qed.

Lemma left_join_any (P0 : Params B0 K0) (P1 : Params B1 K1) cfg0 cfg1 (a : rtree B0 K0 V0) (b : rtree B1 K1 V1) :
  reachable P0 cfg0 any_key a -> reachable P1 cfg1 any_key b ->
  exists s l, rtree_left_join a b = Ok s /\ iterates (left_join_next f) s l /\ map fst l = contents a /\
    Forall (fun p => exists m, iterates (iter_next_with brw1 (joining_filter qb0 f (brw0 (fst (fst p))))) (snd p) m /\
                       sublist m (filter (tk (fst p)) (contents b))) l.
Proof.
  intros Ha Hb. apply inv_any in Ha as [Ha _], Hb as [Hb _].
  destruct (left_join_full f (fun k n => kinded k n) (fun k n => kinded k n) kinded_kd kinded_kd kinded_leaf kinded_leaf
    a b (wf_kinded _ _ _ _ _ _ _ Ha) (wf_kinded _ _ _ _ _ _ _ Hb) (fun e l => sublist (filter (tk e) l) (filter (tk e) (contents b)))) as (s & l & E & H1 & H2 & H3).
  - intros e. apply sublist_refl.
  - intros k n e l l' _ _ Hs Hf. eapply sublist_trans; [|exact Hf]. clear Hf. induction Hs as [l|x c y l _ _ _ IH]; [apply sublist_refl|].
    eapply sublist_trans; [exact IH|]. rewrite !filter_app. apply sublist_app; [apply sublist_refl|].
    change (filter (tk e) y) with ([] ++ filter (tk e) y) at 1. apply sublist_app; [apply sublist_nil|apply sublist_refl].
  - exists s, l. split; [exact E|]. split; [exact H1|]. split; [exact H2|].
    eapply Forall_impl; [|exact H3]. intros [e sr] [G1 G2]. cbn [fst snd] in *.
    exists (pending brw1 (joining_filter qb0 f (brw0 (fst e))) sr). split.
    + apply stack_iterates. eapply okP_stack_ok; [|exact G1]. auto.
    + eapply sublist_trans; [|exact G2]. clear. unfold pending. induction sr as [|x sr IH]; [constructor|]. cbn [flat_map]. rewrite filter_app.
      apply sublist_app; [|exact IH]. destruct x as [es|cs]; [apply sublist_refl|]. cbn [rest_of remP].
      induction cs as [|c cs IHc]; [constructor|]. cbn [flat_map]. rewrite filter_app. apply sublist_app; [|exact IHc].
      unfold vis. destruct (test_bounds _ _); [apply pruned_sub|apply sublist_nil].
Qed.
End LeftSpec.
