(** The join iterator yields exactly the matching pairs. *)
From Verif Require Export IterProof JoinModel.

(** *** Products *)
Section Product.
Context {T0 T1 : Type}.
Notation prod := (product T0 T1).

Definition row (s : list T0) (y : T1) : list (T0 * T1) := map (fun x => (x, y)) s.
Definition rows (s0 : list T0) (s1 : list T1) : list (T0 * T1) := flat_map (row s0) s1.

(** What a product iterator has still to yield. *)
Definition items (p : prod) : list (T0 * T1) :=
  match snd p with
  | [] => []
  | y :: r => row (skipn (rw_i (fst p)) (rw_slice (fst p))) y ++ rows (rw_slice (fst p)) r
  end.
Definition prod_ok (p : prod) : Prop := rw_i (fst p) < length (rw_slice (fst p)) \/ rw_slice (fst p) = [].

Lemma rows_nil s1 : rows [] s1 = [].
Proof. induction s1; cbn; auto. Qed.

Lemma items_new s0 s1 : items (product_new s0 s1) = rows s0 s1 /\ prod_ok (product_new s0 s1).
Proof.
  split; [destruct s1; reflexivity|]. unfold prod_ok. cbn. destruct s0; [now right|left; cbn; lia].
Qed.

Lemma skipn_S {T} i (l : list T) x : nth_error l i = Some x -> skipn i l = x :: skipn (S i) l.
Proof.
  revert i; induction l as [|y l IH]; intros [|i] H; cbn in *; try discriminate; [injection H as ->; reflexivity|].
  apply IH; exact H.
Qed.

Lemma product_next_spec p : prod_ok p ->
  fst (product_next p) = hd_error (items p) /\ prod_ok (snd (product_next p)) /\ items (snd (product_next p)) = tl (items p).
Proof.
  destruct p as [[s i] l]. unfold prod_ok, product_next, items, rw_get, rw_advance. cbn [fst snd rw_slice rw_i].
  intros Hok. destruct (Nat.ltb_spec i (length s)) as [Hlt|Hge].
  - destruct (nth_error_exists i s Hlt) as [x Hx]. rewrite Hx. destruct l as [|y r]; [cbn; auto|].
    rewrite (skipn_S _ _ _ Hx). destruct (Nat.leb_spec (length s) (i + 1)) as [Hw|Hw]; cbn [fst snd rw_slice rw_i].
    + rewrite (skipn_all2 s) by lia. cbn [row map app hd_error tl]. split; [reflexivity|]. split; [left; lia|].
      destruct r; reflexivity.
    + split; [reflexivity|]. split; [left; lia|]. rewrite Nat.add_1_r. reflexivity.
  - destruct Hok as [Hok|Hok]; [lia|]. subst s. destruct l as [|y r]; cbn; [auto|]. rewrite skipn_nil, rows_nil. cbn. auto.
Qed.

Lemma items_length p : length (items p) <= product_size p.
Proof.
  destruct p as [[s i] [|y r]]; unfold items, product_size; cbn [fst snd rw_slice rw_i length]; [lia|].
  assert (H : length (rows s r) = length s * length r).
  { unfold rows. induction r as [|z r IH]; cbn; [lia|]. rewrite app_length, IH. unfold row. rewrite map_length. lia. }
  rewrite app_length, H. unfold row. rewrite map_length, skipn_length. lia.
Qed.

Lemma product_find_spec g fuel p : prod_ok p -> length (items p) <= fuel ->
  exists o p', product_find g fuel p = Ok (o, p') /\ prod_ok p' /\
  match o with
  | Some x => find_rest (fun x => g (fst x) (snd x)) (items p) = Some (x, items p')
  | None => items p' = [] /\ find_rest (fun x => g (fst x) (snd x)) (items p) = None
  end.
Proof.
  revert p; induction fuel as [|fuel IH]; intros p Hok Hlen; destruct (product_next_spec p Hok) as (H1 & H2 & H3);
    cbn [product_find]; destruct (product_next p) as [o p'] eqn:E; cbn [fst snd] in *.
  - destruct (items p) as [|x l] eqn:Ei; [|cbn in Hlen; lia]. subst o. exists None, p'. split; [reflexivity|].
    split; [exact H2|]. split; [exact H3|reflexivity].
  - destruct (items p) as [|x l] eqn:Ei; subst o; cbn [hd_error tl find_rest] in *.
    + exists None, p'. split; [reflexivity|]. split; [exact H2|]. split; [exact H3|reflexivity].
    + destruct (g (fst x) (snd x)).
      * exists (Some x), p'. split; [reflexivity|]. split; [exact H2|]. now rewrite H3.
      * destruct (IH p' H2) as (o & p'' & G1 & G2 & G3); [rewrite H3; cbn in Hlen; lia|].
        exists o, p''. rewrite H3 in G3. auto.
Qed.

Lemma rows_perm s0 s1 : Permutation (rows s0 s1) (list_prod s0 s1).
Proof.
  induction s1 as [|y s1 IH]; cbn.
  - induction s0; cbn; auto.
  - rewrite IH. clear IH. unfold row. induction s0 as [|x s0 IH]; cbn; [constructor|]. constructor.
    rewrite <- IH. perm.
Qed.
End Product.

Lemma rows_in {T0 T1} (s0 : list T0) (s1 : list T1) x : In x (rows s0 s1) <-> In (fst x) s0 /\ In (snd x) s1.
Proof.
  unfold rows. rewrite in_flat_map. destruct x as [a b]. split.
  - intros (y & Hy & H). apply in_map_iff in H as (z & [= <- <-] & Hz). auto.
  - intros [H1 H2]. exists b. split; [exact H2|]. apply in_map_iff. eauto.
Qed.

(** *** The loop *)
Section JoinProof.
Context {B0 B1 K0 K1 V0 V1 Q0 Q1 : Type} (brw0 : K0 -> Q0) (brw1 : K1 -> Q1) (f : JoinFilter B0 B1 Q0 Q1).
Notation node0 := (node B0 K0 V0).
Notation node1 := (node B1 K1 V1).
Notation entries_pair := ((K0 * V0) * (K1 * V1))%type.
Notation st := (@join_stack B0 B1 K0 K1 V0 V1).
Notation tb := (fun p : node0 * node1 => jtest_bounds f (node_bounds (fst p)) (node_bounds (snd p))).
Notation tk := (fun p : entries_pair => jtest_key f (brw0 (fst (fst p))) (brw1 (fst (snd p)))).
Context (pad0 pad1 : nat) (Hpad : pad0 = 0 \/ pad1 = 0).

Definition cands {B K V} (n : node B K V) : list (node B K V) :=
  match node_children n with CInner cs => cs | CLeaf _ => [n] end.

(** The pairs the iterator reaches from a pair of nodes at stack level [l]. *)
Fixpoint reach (l : nat) (p : node0 * node1) : list entries_pair :=
  match node_children (fst p), node_children (snd p) with
  | CLeaf es0, CLeaf es1 => filter tk (rows es0 es1)
  | _, _ =>
    match l with
    | 0 => []
    | S l => flat_map (fun p => if tb p then reach l p else []) (rows (cands (fst p)) (cands (snd p)))
    end
  end.
Definition visj (l : nat) (p : node0 * node1) : list entries_pair := if tb p then reach l p else [].

Definition pair_ok (l : nat) (p : node0 * node1) : Prop := kinded (l - pad0) (fst p) /\ kinded (l - pad1) (snd p).

Notation jslot := (slot (product (K0 * V0) (K1 * V1)) (product node0 node1)).
Definition jrest (i : nat) (x : jslot) : list entries_pair :=
  match i, x with
  | 0, SLeaf p => filter tk (items p)
  | S l, SInner p => flat_map (visj l) (items p)
  | _, _ => []
  end.
Fixpoint jpending (i : nat) (s : st) : list entries_pair :=
  match s with [] => [] | x :: s => jrest i x ++ jpending (S i) s end.

Definition jslot_ok (i : nat) (x : jslot) : Prop :=
  match i, x with
  | 0, SLeaf p => prod_ok p
  | S l, SInner p => prod_ok p /\ Forall (pair_ok l) (items p)
  | _, _ => False
  end.
Fixpoint jstack_ok (i : nat) (s : st) : Prop :=
  match s with [] => True | x :: s => jslot_ok i x /\ jstack_ok (S i) s end.
Definition jslot_empty (x : jslot) : Prop :=
  match x with SLeaf p => items p = [] | SInner p => items p = [] end.

(** Weight of what remains. *)
Definition jweight (x : jslot) : nat :=
  match x with SLeaf _ => 0 | SInner p => list_sum (map pair_size (items p)) end.
Notation weight s := (list_sum (map jweight s)).

Lemma jstack_ok_app i a b : jstack_ok i (a ++ b) <-> jstack_ok i a /\ jstack_ok (i + length a) b.
Proof.
  revert i; induction a as [|x a IH]; intros i; cbn; [rewrite Nat.add_0_r; tauto|].
  rewrite IH. replace (i + S (length a)) with (S i + length a) by lia. tauto.
Qed.
Lemma jpending_app i a b : jpending i (a ++ b) = jpending i a ++ jpending (i + length a) b.
Proof.
  revert i; induction a as [|x a IH]; intros i; cbn; [now rewrite Nat.add_0_r|].
  rewrite IH. replace (i + S (length a)) with (S i + length a) by lia. now rewrite app_assoc.
Qed.
Lemma jpending_empty i s : Forall jslot_empty s -> jpending i s = [].
Proof.
  intros H; revert i; induction H as [|x s Hx _ IH]; intros i; cbn; [reflexivity|]. rewrite IH, app_nil_r.
  destruct i, x as [p|p]; cbn in *; try reflexivity; now rewrite Hx.
Qed.

Lemma visj_skipped l sk : filter tb sk = [] -> flat_map (visj l) sk = [].
Proof.
  induction sk as [|c sk IH]; cbn; [reflexivity|]. unfold visj at 1.
  destruct (jtest_bounds f (node_bounds (fst c)) (node_bounds (snd c))); [discriminate|]. auto.
Qed.

Lemma sum_rows (cs0 : list node0) (cs1 : list node1) :
  list_sum (map pair_size (rows cs0 cs1)) = list_sum (map node_size cs0) * list_sum (map node_size cs1).
Proof.
  unfold rows. induction cs1 as [|c cs1 IH]; cbn [flat_map map]; [cbn; lia|].
  rewrite map_app, list_sum_app, IH. change (list_sum (node_size c :: map node_size cs1)) with (node_size c + list_sum (map node_size cs1)).
  enough (H : list_sum (map (@pair_size B0 B1 K0 K1 V0 V1) (row cs0 c)) = list_sum (map node_size cs0) * node_size c) by lia.
  clear. unfold row. induction cs0 as [|x cs0 IH]; cbn [map]; [reflexivity|].
  change (list_sum (pair_size (x, c) :: map pair_size (map (fun y => (y, c)) cs0))) with (pair_size (x, c) + list_sum (map (@pair_size B0 B1 K0 K1 V0 V1) (map (fun y => (y, c)) cs0))).
  rewrite IH. unfold pair_size. cbn [fst snd].
  change (list_sum (node_size x :: map node_size cs0)) with (node_size x + list_sum (map node_size cs0)). lia.
Qed.

Lemma node_size_pos {B K V} (n : node B K V) : 1 <= node_size n.
Proof. destruct n as [b [cs|es]]; cbn; lia. Qed.

Lemma set_at_end {T} (a : list T) y z b l : length a = l -> set_nth l z (a ++ y :: b) = a ++ z :: b.
Proof. intros <-. apply set_nth_middle. Qed.
Lemma nth_at {T} (a : list T) y b l : length a = l -> nth_error (a ++ y :: b) l = Some y.
Proof. intros <-. apply nth_error_middle. Qed.

(** Starting to join a pair at level [l]: slot [l] now holds what that pair has below it. *)
Lemma start_join_spec l n0 n1 (s1 : st) y s2 :
  pair_ok l (n0, n1) -> length s1 = l -> jslot_ok l y ->
  exists z, start_join (l - pad0, n0) (l - pad1, n1) (s1 ++ y :: s2) = Ok (s1 ++ z :: s2) /\
    jslot_ok l z /\ jrest l z = reach l (n0, n1) /\ jweight z < pair_size (n0, n1).
Proof.
  intros [Hk0 Hk1] Hl Hy. unfold start_join. cbn [fst snd].
  destruct n0 as [b0 ch0], n1 as [b1 ch1]. cbn [fst snd] in *.
  assert (Hch : forall (pad : nat) B K V (n : node B K V), kinded (l - pad) n -> children_at (l - pad) n = Ok (node_children n)).
  { intros pad B K V [b [cs|es]] H; destruct (l - pad); cbn in H; try contradiction; reflexivity. }
  rewrite (Hch pad0 _ _ _ _ Hk0), (Hch pad1 _ _ _ _ Hk1). cbn [bind node_children].
  assert (Hboth : forall cs0 cs1, (exists c, ch0 = CInner c) \/ (exists c, ch1 = CInner c) ->
    cands (Node b0 ch0) = cs0 -> cands (Node b1 ch1) = cs1 ->
    exists z, (if Nat.max (l - pad0) (l - pad1) =? 0 then Panic else
      stack_set_inner (s1 ++ y :: s2) (Nat.max (l - pad0) (l - pad1)) (product_new cs0 cs1)) = Ok (s1 ++ z :: s2) /\
    jslot_ok l z /\ jrest l z = reach l (Node b0 ch0, Node b1 ch1) /\ jweight z < pair_size (Node b0 ch0, Node b1 ch1)).
  { intros cs0 cs1 Hin E0 E1.
    assert (Hpos : 0 < l). { destruct l; [|lia]. destruct Hin as [[c ->]|[c ->]]; cbn in *; contradiction. }
    replace (Nat.max (l - pad0) (l - pad1)) with l by (destruct Hpad; subst; lia).
    destruct (Nat.eqb_spec l 0); [lia|]. destruct l as [|l']; [lia|]. destruct y as [|py]; [contradiction|].
    unfold stack_set_inner, stack_inner. rewrite (nth_at s1 _ _ _ Hl). cbn [bind]. rewrite (set_at_end s1 _ _ _ _ Hl).
    exists (SInner (product_new cs0 cs1)). split; [reflexivity|]. destruct (items_new cs0 cs1) as [Ei Hok].
    split; [|split].
    - cbn [jslot_ok]. split; [exact Hok|]. rewrite Ei. apply Forall_forall. intros [x0 x1] Hx. apply rows_in in Hx as [Hx0 Hx1].
      cbn [fst snd] in *.
      assert (Hc : forall pad B K V (n : node B K V) x, kinded (S l' - pad) n -> In x (cands n) -> kinded (l' - pad) x).
      { intros pad B K V [b [cs|es]] x H Hx; cbn [cands node_children] in Hx.
        - destruct (S l' - pad) as [|k] eqn:Ek; cbn in H; [contradiction|]. replace (l' - pad) with k by lia. rewrite Forall_forall in H. auto.
        - destruct (S l' - pad) as [|k] eqn:Ek; cbn in H; [|contradiction]. replace (l' - pad) with 0 by lia. destruct Hx as [<-|[]]. exact I. }
      split; [eapply (Hc pad0); [exact Hk0|now rewrite E0]|eapply (Hc pad1); [exact Hk1|now rewrite E1]].
    - cbn [jrest]. rewrite Ei. cbn [reach fst snd node_children]. rewrite E0, E1. fold (visj l').
      change (fun p : node0 * node1 => if jtest_bounds f (node_bounds (fst p)) (node_bounds (snd p)) then reach l' p else []) with (visj l').
      destruct ch0, ch1; try reflexivity. destruct Hin as [[c Hc]|[c Hc]]; discriminate.
    - cbn [jweight]. rewrite Ei, sum_rows. unfold pair_size. cbn [fst snd].
      assert (Hs : forall B K V (n : node B K V), match node_children n with CInner _ => 1 + list_sum (map node_size (cands n)) | CLeaf _ => list_sum (map node_size (cands n)) end = node_size n).
      { intros B K V [b [cs|es]]; reflexivity. }
      assert (H0 := Hs _ _ _ (Node b0 ch0)). assert (H1 := Hs _ _ _ (Node b1 ch1)). rewrite E0 in H0. rewrite E1 in H1.
      assert (P0 := node_size_pos (Node b0 ch0)). assert (P1 := node_size_pos (Node b1 ch1)).
      cbn [node_children] in H0, H1. destruct ch0, ch1; try nia.
      destruct Hin as [[c Hc]|[c Hc]]; discriminate. }
  destruct ch0 as [cs0|es0], ch1 as [cs1|es1]; try (apply Hboth; [eauto|reflexivity|reflexivity]).
  assert (El : l = 0).
  { destruct l as [|l']; [reflexivity|]. destruct Hpad as [-> | ->]; cbn in Hk0, Hk1; contradiction. }
  subst l. rewrite El in *. destruct s1; [|discriminate]. cbn [app]. destruct y as [py|]; [|contradiction].
  unfold stack_set_leaf, stack_leaf. cbn [nth_error bind set_nth]. exists (SLeaf (product_new es0 es1)).
  destruct (items_new es0 es1) as [Ei Hok]. split; [reflexivity|]. split; [exact Hok|].
  split; [cbn [jrest]; rewrite Ei; reflexivity|]. cbn. lia.
Qed.

Lemma join_loop_spec fuel level (s : st) : jstack_ok 0 s -> Forall jslot_empty (firstn level s) ->
  2 * weight s + (length s - level) <= fuel ->
  exists s', join_loop brw0 brw1 f fuel level (s, (pad0, pad1)) = Ok (hd_error (jpending 0 s), (s', (pad0, pad1))) /\ jstack_ok 0 s'
    /\ jpending 0 s' = tl (jpending 0 s).
Proof.
  revert level s; induction fuel as [|fuel IH]; intros level s Hok Hlow Hfuel; cbn [join_loop].
  { destruct (Nat.ltb_spec level (length s)); [lia|]. rewrite firstn_all2 in Hlow by lia.
    exists s. rewrite (jpending_empty _ _ Hlow). auto. }
  destruct (Nat.ltb_spec level (length s)) as [Hlt|Hge].
  2: { rewrite firstn_all2 in Hlow by lia. exists s. rewrite (jpending_empty _ _ Hlow). auto. }
  destruct (nth_error_exists level s Hlt) as [x Hx]. apply nth_error_split in Hx as (l1 & l2 & -> & Hl1).
  rewrite firstn_app, <- Hl1, firstn_all, Nat.sub_diag in Hlow. cbn [firstn] in Hlow. rewrite app_nil_r in Hlow.
  apply jstack_ok_app in Hok as [Hok1 [Hk Hok2]]. cbn [Nat.add] in Hk, Hok2. rewrite Hl1 in Hk, Hok2.
  assert (Hp : forall z, jpending 0 (l1 ++ z :: l2) = jrest level z ++ jpending (S level) l2).
  { intros z. rewrite jpending_app, (jpending_empty _ _ Hlow), <- Hl1. reflexivity. }
  assert (Hw : forall z, weight (l1 ++ z :: l2) = weight l1 + (jweight z + weight l2)).
  { intros z. rewrite map_app, list_sum_app. reflexivity. }
  rewrite app_length in Hfuel. cbn [length] in Hfuel. rewrite Hw in Hfuel. rewrite Hp.
  destruct level as [|l].
  - destruct l1; [|discriminate]. cbn [app length] in *. destruct x as [p|p]; [|contradiction]. cbn [jslot_ok] in Hk.
    cbn [stack_leaf nth_error bind].
    destruct (product_find_spec (fun e0 e1 => jtest_key f (brw0 (fst e0)) (brw1 (fst e1))) (product_size p) p Hk (items_length p))
      as (o & p' & -> & Hp' & Hf). cbn [bind]. unfold stack_set_leaf. cbn [stack_leaf nth_error bind set_nth].
    destruct o as [e|].
    + apply find_rest_some in Hf as (He & sk & Ei & Hsk). eexists; split; [|split].
      * cbn [jrest]. rewrite Ei, filter_app, Hsk. cbn [filter app]. rewrite He. reflexivity.
      * cbn. auto.
      * cbn [jpending jrest]. rewrite Ei, filter_app, Hsk. cbn [filter app]. rewrite He. reflexivity.
    + destruct Hf as [Ei Hf]. apply find_rest_none in Hf.
      destruct (IH 1 (SLeaf p' :: l2)) as (s' & E & H1 & H2).
      * cbn. auto.
      * cbn. constructor; [exact Ei|constructor].
      * rewrite (Hw (SLeaf p')). cbn [map list_sum fold_right jweight length] in *. lia.
      * exists s'. rewrite Hp in E, H2. cbn [jrest] in *. rewrite Ei in E, H2. rewrite Hf. auto.
  - destruct x as [p|p]; [contradiction|]. cbn [jslot_ok] in Hk. destruct Hk as [Hk Hks].
    unfold stack_inner at 1. rewrite (nth_at l1 _ _ _ Hl1). cbn [bind].
    destruct (product_find_spec (fun n0 n1 => jtest_bounds f (node_bounds n0) (node_bounds n1)) (product_size p) p Hk (items_length p))
      as (o & p' & -> & Hp' & Hf). cbn [bind]. unfold stack_set_inner at 1, stack_inner at 1. rewrite (nth_at l1 _ _ _ Hl1).
    cbn [bind]. rewrite (set_at_end l1 _ _ _ _ Hl1). destruct o as [[n0 n1]|].
    + apply find_rest_some in Hf as (Hn & sk & Ei & Hsk). rewrite Ei in Hks. apply Forall_app in Hks as [_ Hks].
      inversion Hks as [|? ? Hkn Hkr]; subst.
      destruct (app_last_ _ _ Hl1) as (m1 & y & E1 & Hm1). subst l1. rewrite <- !app_assoc. cbn [app].
      apply jstack_ok_app in Hok1 as [Hokm [Hy _]]. cbn [Nat.add] in Hy. rewrite Hm1 in Hy.
      apply Forall_app in Hlow as [Hlow1 Hlow2].
      destruct (start_join_spec l n0 n1 m1 y (SInner p' :: l2) Hkn Hm1 Hy) as (z & -> & Hz1 & Hz2 & Hz3). cbn [bind].
      destruct (IH l (m1 ++ z :: SInner p' :: l2)) as (s' & E & H1 & H2).
      * apply jstack_ok_app. split; [exact Hokm|]. cbn [Nat.add]. rewrite Hm1. split; [exact Hz1|]. split; [split; [exact Hp'|exact Hkr]|].
        exact Hok2.
      * rewrite firstn_app, <- Hm1, firstn_all, Nat.sub_diag. cbn. now rewrite app_nil_r.
      * rewrite app_length in *. cbn [length] in *. rewrite map_app, list_sum_app in *.
        change (list_sum (map jweight (z :: SInner p' :: l2))) with (jweight z + (list_sum (map pair_size (items p')) + weight l2)).
        assert (Hwp : jweight (SInner p) = list_sum (map pair_size sk) + (pair_size (n0, n1) + list_sum (map pair_size (items p')))).
        { cbn [jweight]. rewrite Ei, map_app, list_sum_app. reflexivity. }
        rewrite Hwp in Hfuel. lia.
      * exists s'.
        assert (Epn : jpending 0 (m1 ++ z :: SInner p' :: l2) = reach l (n0, n1) ++ flat_map (visj l) (items p') ++ jpending (S (S l)) l2).
        { rewrite jpending_app, (jpending_empty _ _ Hlow1). cbn [Nat.add app jpending]. rewrite Hm1, Hz2. reflexivity. }
        rewrite Epn in E, H2. cbn [jrest]. rewrite Ei, flat_map_app, (visj_skipped l _ Hsk). cbn [flat_map app].
        unfold visj at 1 3. rewrite Hn. rewrite <- app_assoc. auto.
    + destruct Hf as [Ei Hf]. apply find_rest_none in Hf.
      destruct (IH (S l + 1) (l1 ++ SInner p' :: l2)) as (s' & E & H1 & H2).
      * apply jstack_ok_app. split; [exact Hok1|]. cbn [Nat.add]. rewrite Hl1. split; [split; [exact Hp'|rewrite Ei; constructor]|exact Hok2].
      * replace (l1 ++ SInner p' :: l2) with ((l1 ++ [SInner p']) ++ l2) by (now rewrite <- app_assoc).
        assert (El1 : length (l1 ++ [SInner p']) = S l + 1) by (rewrite app_length, Hl1; reflexivity).
        rewrite firstn_app, El1, Nat.sub_diag, <- El1, firstn_all. cbn [firstn]. rewrite app_nil_r. apply Forall_app. split; [exact Hlow|].
        constructor; [exact Ei|constructor].
      * rewrite app_length in *. cbn [length] in *. rewrite Hw. cbn [jweight]. rewrite Ei. cbn [map list_sum fold_right]. lia.
      * exists s'. rewrite Hp in E, H2. cbn [jrest] in *. rewrite Ei in E, H2. rewrite (visj_skipped l _ Hf). auto.
Qed.

Lemma jweight_fuel (s : st) : 2 * weight s + (length s - 0) <= join_fuel s.
Proof.
  unfold join_fuel. enough (weight s <= list_sum (map join_slot_size s)) by lia.
  induction s as [|x s IH]; cbn [map]; [constructor|].
  change (list_sum (jweight x :: map jweight s)) with (jweight x + weight s).
  change (list_sum (join_slot_size x :: map join_slot_size s)) with (join_slot_size x + list_sum (map (@join_slot_size B0 B1 K0 K1 V0 V1) s)).
  enough (jweight x <= join_slot_size x) by lia. destruct x as [p|[[sl i] r]]; cbn [jweight join_slot_size]; [lia|].
  unfold items, product_fuel. cbn [fst snd rw_slice rw_i]. destruct r as [|y r]; [cbn; lia|].
  rewrite map_app, list_sum_app, sum_rows.
  change (list_sum (map node_size (y :: r))) with (node_size y + list_sum (map (@node_size B1 K1 V1) r)).
  enough (H : list_sum (map (@pair_size B0 B1 K0 K1 V0 V1) (row (skipn i sl) y)) <= list_sum (map node_size sl) * node_size y) by lia.
  assert (Hr : forall l, list_sum (map (@pair_size B0 B1 K0 K1 V0 V1) (row l y)) = list_sum (map node_size l) * node_size y).
  { intros l. assert (H := sum_rows l [y]). unfold rows in H. cbn [flat_map] in H. rewrite app_nil_r in H. rewrite H. cbn. lia. }
  rewrite Hr. apply Nat.mul_le_mono_r. rewrite <- (firstn_skipn i sl) at 2. rewrite map_app, list_sum_app. lia.
Qed.

Lemma join_iterates (s : st) : jstack_ok 0 s -> iterates (join_next brw0 brw1 f) (s, (pad0, pad1)) (jpending 0 s).
Proof.
  intros H. apply (iterates_sim _ (fun it l => exists s, it = (s, (pad0, pad1)) /\ jstack_ok 0 s /\ jpending 0 s = l)).
  - intros it l (s0 & -> & H0 & <-). unfold join_next. cbn [fst].
    destruct (join_loop_spec (join_fuel s0) 0 s0 H0) as (s' & E & H1 & H2); [constructor|apply jweight_fuel|].
    exists (s', (pad0, pad1)). split; [exact E|]. eauto.
  - eauto.
Qed.
End JoinProof.

Section JoinNew.
Context {B0 B1 K0 K1 V0 V1 Q0 Q1 : Type} (brw0 : K0 -> Q0) (brw1 : K1 -> Q1) (f : JoinFilter B0 B1 Q0 Q1).
Notation tkp := (fun p : (K0 * V0) * (K1 * V1) => jtest_key f (brw0 (fst (fst p))) (brw1 (fst (snd p)))).

Lemma join_full (a : rtree B0 K0 V0) (b : rtree B1 K1 V1) : kinded (fst a) (snd a) -> kinded (fst b) (snd b) ->
  exists s, rtree_join a b f = Ok s /\
    iterates (join_next brw0 brw1 f) s (visj brw0 brw1 f (Nat.max (fst a) (fst b)) (snd a, snd b)).
Proof.
  destruct a as [l0 n0], b as [l1 n1]. cbn [fst snd]. intros H0 H1. unfold rtree_join, join_new. cbn [fst snd]. unfold visj. cbn [fst snd].
  destruct (jtest_bounds f (node_bounds n0) (node_bounds n1)); cbn [negb].
  2: { exists (stack_empty, (0, 0)). split; [reflexivity|]. apply (join_iterates brw0 brw1 f 0 0 (or_introl eq_refl) []). exact I. }
  set (h := Nat.max l0 l1). set (pad0 := h - l0). set (pad1 := h - l1).
  assert (Hpad : pad0 = 0 \/ pad1 = 0) by (unfold pad0, pad1, h; lia).
  assert (Hp : pair_ok pad0 pad1 h (n0, n1)).
  { split; cbn [fst snd]; unfold pad0, pad1; [replace (h - (h - l0)) with l0 by (unfold h; lia)|replace (h - (h - l1)) with l1 by (unfold h; lia)]; assumption. }
  assert (Hinit : forall m, jstack_ok (B0 := B0) (B1 := B1) (K0 := K0) (K1 := K1) (V0 := V0) (V1 := V1) pad0 pad1 1 (map SInner (repeat (product_new [] []) m))).
  { enough (forall m i, jstack_ok (B0 := B0) (B1 := B1) (K0 := K0) (K1 := K1) (V0 := V0) (V1 := V1) pad0 pad1 (S i) (map SInner (repeat (product_new [] []) m))) by auto.
    induction m as [|m IH]; intros i; cbn; [exact I|]. split; [|apply IH]. split; [now right|constructor]. }
  assert (Hpi : forall m i, jpending brw0 brw1 f (B0 := B0) (B1 := B1) (V0 := V0) (V1 := V1) (S i) (map SInner (repeat (product_new [] []) m)) = []).
  { induction m as [|m IH]; intros i; cbn; [reflexivity|]. apply IH. }
  set (s0 := stack_new (product_new [] []) (repeat (product_new [] []) h) : @join_stack B0 B1 K0 K1 V0 V1).
  assert (Hsplit : exists s1 y, s0 = s1 ++ [y] /\ length s1 = h).
  { apply app_last_. unfold s0, stack_new. cbn. now rewrite map_length, repeat_length. }
  destruct Hsplit as (s1 & y & Es & Hl).
  assert (Hok0 : jstack_ok pad0 pad1 0 s0) by (split; [now right|apply Hinit]).
  assert (Hpe : jpending brw0 brw1 f 0 s0 = []) by (cbn; apply Hpi).
  rewrite Es in Hok0, Hpe. apply (jstack_ok_app pad0 pad1 Hpad) in Hok0 as [Hok1 [Hy _]]. cbn [Nat.add] in Hy. rewrite Hl in Hy.
  rewrite (jpending_app brw0 brw1 f pad0 pad1 Hpad) in Hpe. apply app_eq_nil in Hpe as [Hpe _].
  assert (Hl0 : l0 = h - pad0) by (unfold pad0, h; lia). assert (Hl1 : l1 = h - pad1) by (unfold pad1, h; lia).
  destruct (start_join_spec brw0 brw1 f pad0 pad1 Hpad h n0 n1 s1 y [] Hp Hl Hy) as (z & E & Hz1 & Hz2 & _).
  rewrite Es. rewrite <- Hl0, <- Hl1 in E. rewrite E. cbn [bind]. eexists; split; [reflexivity|].
  assert (Hr : jpending brw0 brw1 f 0 (s1 ++ [z]) = reach brw0 brw1 f h (n0, n1)).
  { rewrite (jpending_app brw0 brw1 f pad0 pad1 Hpad), Hpe. cbn [app jpending Nat.add]. rewrite app_nil_r, Hl. exact Hz2. }
  rewrite <- Hr. apply (join_iterates brw0 brw1 f pad0 pad1 Hpad). apply (jstack_ok_app pad0 pad1 Hpad). split; [exact Hok1|].
  cbn [Nat.add jstack_ok]. rewrite Hl. auto.
Qed.
End JoinNew.

(** *** Against the specification *)
Section JoinSpec.
Context {B0 B1 K0 K1 V0 V1 Q0 Q1 : Type} (brw0 : K0 -> Q0) (brw1 : K1 -> Q1) (f : JoinFilter B0 B1 Q0 Q1).
Notation node0 := (node B0 K0 V0).
Notation node1 := (node B1 K1 V1).
Notation entries_pair := ((K0 * V0) * (K1 * V1))%type.
Notation tb := (fun p : node0 * node1 => jtest_bounds f (node_bounds (fst p)) (node_bounds (snd p))).
Notation tk := (fun p : entries_pair => jtest_key f (brw0 (fst (fst p))) (brw1 (fst (snd p)))).

Lemma list_prod_app_l {X Y} (a b : list X) (l : list Y) : list_prod (a ++ b) l = list_prod a l ++ list_prod b l.
Proof. induction a as [|x a IH]; cbn; [reflexivity|]. now rewrite IH, app_assoc. Qed.
Lemma list_prod_app_r {X Y} (l : list X) (a b : list Y) : Permutation (list_prod l (a ++ b)) (list_prod l a ++ list_prod l b).
Proof. induction l as [|x l IH]; cbn; [constructor|]. rewrite IH, map_app. perm. Qed.
Lemma list_prod_nil_r {X Y} (l : list X) : list_prod l (@nil Y) = [].
Proof. induction l; cbn; auto. Qed.

Lemma perm_flat_map {X Y} (g h : X -> list Y) l : Forall (fun x => Permutation (g x) (h x)) l -> Permutation (flat_map g l) (flat_map h l).
Proof. induction 1 as [|x l Hx _ IH]; cbn; [constructor|]. now apply Permutation_app. Qed.

Lemma filter_perm {X} (g : X -> bool) a b : Permutation a b -> Permutation (filter g a) (filter g b).
Proof.
  induction 1 as [|x a b _ IH|x y a|a b c _ IH1 _ IH2]; cbn; [constructor| | |etransitivity; eassumption].
  - destruct (g x); [now constructor|exact IH].
  - destruct (g x), (g y); try reflexivity. constructor.
Qed.

Notation pairs p := (filter tk (list_prod (entries (fst p)) (entries (snd p)))).

Lemma pairs_rows (cs0 : list node0) (cs1 : list node1) :
  Permutation (flat_map (fun p => pairs p) (rows cs0 cs1)) (filter tk (list_prod (flat_map entries cs0) (flat_map entries cs1))).
Proof.
  transitivity (flat_map (fun p => pairs p) (list_prod cs0 cs1)); [apply Permutation_flat_map, rows_perm|].
  induction cs0 as [|c cs0 IH]; cbn [list_prod flat_map]; [constructor|].
  rewrite list_prod_app_l, filter_app, flat_map_app. apply Permutation_app; [|exact IH]. clear IH.
  induction cs1 as [|d cs1 IH]; cbn [map flat_map fst snd]; [now rewrite list_prod_nil_r|].
  etransitivity; [|symmetry; apply filter_perm, list_prod_app_r]. rewrite filter_app. now apply Permutation_app_head.
Qed.

Lemma entries_cands {B K V} (n : node B K V) : entries n = flat_map entries (cands n).
Proof. destruct n as [b [cs|es]]; cbn; [reflexivity|now rewrite app_nil_r]. Qed.

Lemma multi_flat_map {X Y} (g h : X -> list Y) l : Forall (fun x => multi_part (g x) (h x)) l -> multi_part (flat_map g l) (flat_map h l).
Proof.
  induction 1 as [|x l [r Hr] _ [s Hs]]; cbn; [exists []; constructor|]. exists (r ++ s). rewrite <- Hr, <- Hs. perm.
Qed.

(** Nothing is made up and nothing is yielded twice, whatever the filter. *)
Lemma reach_part l p : multi_part (reach brw0 brw1 f l p) (pairs p).
Proof.
  revert p; induction l as [|l IH]; intros [[b0 ch0] [b1 ch1]].
  - cbn [reach fst snd node_children]. destruct ch0 as [cs0|es0], ch1 as [cs1|es1];
      try (eexists; cbn [app]; reflexivity). exists []. rewrite app_nil_r. apply filter_perm, rows_perm.
  - assert (Hstep : multi_part (flat_map (fun p => if tb p then reach brw0 brw1 f l p else []) (rows (cands (Node b0 ch0)) (cands (Node b1 ch1)))) (pairs (Node b0 ch0, Node b1 ch1))).
    { cbn [fst snd]. rewrite (entries_cands (Node b0 ch0)), (entries_cands (Node b1 ch1)).
      destruct (multi_flat_map (fun p => if tb p then reach brw0 brw1 f l p else []) (fun p => pairs p) (rows (cands (Node b0 ch0)) (cands (Node b1 ch1)))) as [r Hr].
      - apply Forall_forall. intros p _. destruct (tb p); [apply IH|]. eexists; cbn [app]; reflexivity.
      - exists r. rewrite Hr. apply pairs_rows. }
    cbn [reach fst snd node_children]. destruct ch0 as [cs0|es0], ch1 as [cs1|es1]; try exact Hstep.
    exists []. rewrite app_nil_r. apply filter_perm, rows_perm.
Qed.

Lemma visj_part l p : multi_part (visj brw0 brw1 f l p) (pairs p).
Proof. unfold visj. destruct (tb p); [apply reach_part|]. eexists; cbn [app]; reflexivity. Qed.

Context (P0 : Params B0 K0) (P1 : Params B1 K1) (cfg0 cfg1 : config) (ok0 : K0 -> Prop) (ok1 : K1 -> Prop).
Context (incl0 : B0 -> B0 -> Prop) (incl1 : B1 -> B1 -> Prop).
Context (HF : join_filter_lawful P0 P1 brw0 brw1 incl0 incl1 ok0 ok1 (jtest_bounds f) (jtest_key f)).

Definition good {B K V} (P : Params B K) (incl : B -> B -> Prop) (ok : K -> Prop) cfg level (n : node B K V) : Prop :=
  exists lo strict, wf cfg ok (rel_cover P incl) lo strict level n.

Lemma good_cands {B K V} (P : Params B K) incl ok cfg l pad (n : node B K V) : good P incl ok cfg (S l - pad) n ->
  Forall (good P incl ok cfg (l - pad)) (cands n).
Proof.
  intros (lo & strict & Hw). destruct (S l - pad) as [|k] eqn:Ek; destruct (wf_inv _ _ _ _ _ _ _ Hw) as (b & x & E).
  - subst n. cbn. replace (l - pad) with 0 by lia. constructor; [|constructor]. exists lo, strict. exact Hw.
  - subst n. rewrite wf_inner in Hw. destruct Hw as (_ & _ & Hcs). cbn [cands node_children]. replace (l - pad) with k by lia.
    eapply Forall_impl; [|exact Hcs]. intros c [Hc _]. exists lo, strict. exact Hc.
Qed.

Lemma good_cover {B K V} (P : Params B K) incl ok cfg l (n : node B K V) : good P incl ok cfg l n ->
  forall e, In e (entries n) -> ok (fst e) /\ incl (node_bounds n) (key_bounds P (fst e)).
Proof.
  intros (lo & strict & Hw) e He. split.
  - assert (H := wf_ok _ _ _ _ _ _ _ Hw). rewrite Forall_forall in H. auto.
  - apply (wf_rel _ _ _ _ _ _ _ Hw). unfold keys. apply in_map_iff. eauto.
Qed.

Lemma cover_prune_pair l0 l1 n0 n1 : good P0 incl0 ok0 cfg0 l0 n0 -> good P1 incl1 ok1 cfg1 l1 n1 -> tb (n0, n1) = false -> pairs (n0, n1) = [].
Proof.
  intros H0 H1 Hb. cbn [fst snd] in *. assert (G0 := good_cover _ _ _ _ _ _ H0). assert (G1 := good_cover _ _ _ _ _ _ H1).
  destruct (filter tk (list_prod (entries n0) (entries n1))) as [|p r] eqn:E; [reflexivity|exfalso].
  assert (Hin : In p (filter tk (list_prod (entries n0) (entries n1)))) by (rewrite E; now left).
  apply filter_In in Hin as [Hin Hk]. destruct p as [e0 e1]. apply in_prod_iff in Hin as [Hi0 Hi1]. cbn [fst snd] in Hk.
  destruct (G0 _ Hi0), (G1 _ Hi1). rewrite (HF (node_bounds n0) (node_bounds n1) (fst e0) (fst e1)) in Hb; auto. discriminate.
Qed.

Lemma reach_exact pad0 pad1 (Hpad : pad0 = 0 \/ pad1 = 0) l p :
  good P0 incl0 ok0 cfg0 (l - pad0) (fst p) -> good P1 incl1 ok1 cfg1 (l - pad1) (snd p) ->
  Permutation (reach brw0 brw1 f l p) (pairs p).
Proof.
  revert p; induction l as [|l IH]; intros [[b0 ch0] [b1 ch1]]; cbn [fst snd]; intros H0 H1.
  - destruct H0 as (lo & st & Hw0), H1 as (lo' & st' & Hw1).
    destruct (wf_inv _ _ _ _ _ _ _ Hw0) as (? & es0 & [= -> ->]), (wf_inv _ _ _ _ _ _ _ Hw1) as (? & es1 & [= -> ->]).
    cbn [reach fst snd node_children]. apply filter_perm, rows_perm.
  - assert (Hstep : Permutation (flat_map (fun p => if tb p then reach brw0 brw1 f l p else []) (rows (cands (Node b0 ch0)) (cands (Node b1 ch1)))) (pairs (Node b0 ch0, Node b1 ch1))).
    { cbn [fst snd]. rewrite (entries_cands (Node b0 ch0)), (entries_cands (Node b1 ch1)).
      rewrite <- pairs_rows. apply perm_flat_map. apply good_cands in H0, H1. rewrite Forall_forall in H0, H1.
      apply Forall_forall. intros [c0 c1] Hin. apply rows_in in Hin as [Hi0 Hi1]. cbn [fst snd] in Hi0, Hi1.
      assert (G0 := H0 _ Hi0). assert (G1 := H1 _ Hi1).
      cbn [fst snd]. destruct (jtest_bounds f (node_bounds c0) (node_bounds c1)) eqn:Eb; [apply (IH (c0, c1)); assumption|].
      assert (H := cover_prune_pair _ _ _ _ G0 G1 Eb). cbn [fst snd] in H. rewrite H. constructor. }
    cbn [reach fst snd node_children]. destruct ch0 as [cs0|es0], ch1 as [cs1|es1]; try exact Hstep.
    apply filter_perm, rows_perm.
Qed.

Lemma join_exact_good (a : rtree B0 K0 V0) (b : rtree B1 K1 V1) :
  good P0 incl0 ok0 cfg0 (fst a) (snd a) -> good P1 incl1 ok1 cfg1 (fst b) (snd b) ->
  exists s l, rtree_join a b f = Ok s /\ iterates (join_next brw0 brw1 f) s l /\
    Permutation l (filter tk (list_prod (contents a) (contents b))).
Proof.
  intros Ga Gb. assert (Ha := Ga). assert (Hb := Gb). destruct Ha as (? & ? & Ha), Hb as (? & ? & Hb).
  destruct (join_full brw0 brw1 f a b (wf_kinded _ _ _ _ _ _ _ Ha) (wf_kinded _ _ _ _ _ _ _ Hb)) as (s & E & Hs).
  exists s, (visj brw0 brw1 f (Nat.max (fst a) (fst b)) (snd a, snd b)). split; [exact E|]. split; [exact Hs|].
  unfold visj. cbn [fst snd]. destruct (jtest_bounds f (node_bounds (snd a)) (node_bounds (snd b))) eqn:Eb.
  - apply (reach_exact (Nat.max (fst a) (fst b) - fst a) (Nat.max (fst a) (fst b) - fst b)); cbn [fst snd]; [lia| |].
    + replace (Nat.max (fst a) (fst b) - (Nat.max (fst a) (fst b) - fst a)) with (fst a) by lia. exact Ga.
    + replace (Nat.max (fst a) (fst b) - (Nat.max (fst a) (fst b) - fst b)) with (fst b) by lia. exact Gb.
  - unfold contents. assert (H := cover_prune_pair _ _ _ _ Ga Gb Eb). cbn [fst snd] in H. rewrite H. constructor.
Qed.

Lemma join_exact (a : rtree B0 K0 V0) (b : rtree B1 K1 V1) :
  bounds_laws (bops P0) incl0 -> bounds_laws (bops P1) incl1 -> reachable P0 cfg0 ok0 a -> reachable P1 cfg1 ok1 b ->
  exists s l, rtree_join a b f = Ok s /\ iterates (join_next brw0 brw1 f) s l /\
    Permutation l (filter tk (list_prod (contents a) (contents b))).
Proof.
  intros L0 L1 Ha Hb. apply (inv_cover _ _ _ incl0 _ L0) in Ha as [Ha _]. apply (inv_cover _ _ _ incl1 _ L1) in Hb as [Hb _].
  apply join_exact_good; eexists _, _; eassumption.
Qed.
End JoinSpec.

Lemma join_any {B0 B1 K0 K1 V0 V1 Q0 Q1 : Type} (brw0 : K0 -> Q0) (brw1 : K1 -> Q1) (f : JoinFilter B0 B1 Q0 Q1)
  (P0 : Params B0 K0) (P1 : Params B1 K1) (cfg0 cfg1 : config) (a : rtree B0 K0 V0) (b : rtree B1 K1 V1) :
  reachable P0 cfg0 any_key a -> reachable P1 cfg1 any_key b ->
  exists s l, rtree_join a b f = Ok s /\ iterates (join_next brw0 brw1 f) s l /\
    multi_part l (filter (fun p => jtest_key f (brw0 (fst (fst p))) (brw1 (fst (snd p)))) (list_prod (contents a) (contents b))).
Proof.
  intros Ha Hb. apply inv_any in Ha as [Ha _], Hb as [Hb _].
  destruct (join_full brw0 brw1 f a b (wf_kinded _ _ _ _ _ _ _ Ha) (wf_kinded _ _ _ _ _ _ _ Hb)) as (s & E & Hs).
  eexists s, _. split; [exact E|]. split; [exact Hs|]. apply (visj_part brw0 brw1 f _ (snd a, snd b)).
Qed.
