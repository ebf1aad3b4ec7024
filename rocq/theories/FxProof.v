(** Iterators whose callbacks have effects explore the tree depth-first, whatever the callbacks do. *)
From Verif Require Export FxSpec JoinProof.

Section Explore.
Context {E A : Type}.
Notation search := (search E A).

Fixpoint search_ind' (P : search -> Prop) (HH : forall q a, P (Hit q a))
    (HG : forall q below, Forall P below -> P (Group q below)) (s : search) : P s :=
  match s with
  | Hit q a => HH q a
  | Group q below =>
    HG q below ((fix go l : Forall P l := match l with [] => Forall_nil P | x :: r => Forall_cons x (search_ind' P HH HG x) (go r) end) below)
  end.

(** Any search can be cut short by rejecting the rest. *)
Lemma explore_reject (todo : list search) : exists log, explore todo log [] [].
Proof.
  induction todo as [|[q a|q b] todo (log & IH)]; [exists []; constructor| |];
    exists ((q, Some false) :: log); now constructor.
Qed.

Lemma explore_nil_inv log out (missed : list A) : explore (@nil search) log out missed -> log = [] /\ out = [] /\ missed = [].
Proof. inversion 1; auto. Qed.

Lemma sublist_refl {T} (l : list T) : sublist l l.
Proof. induction l; [constructor|now apply sub_take]. Qed.
Lemma sublist_nil {T} (l : list T) : sublist [] l.
Proof. induction l; [constructor|now apply sub_skip]. Qed.
Lemma sublist_app {T} (a b c d : list T) : sublist a b -> sublist c d -> sublist (a ++ c) (b ++ d).
Proof. intros H1 H2. induction H1; cbn; [exact H2|apply sub_skip; auto|apply sub_take; auto]. Qed.

Lemma explore_sub (todo : list search) log out missed : explore todo log out missed -> sublist out (flat_map hits todo).
Proof.
  induction 1; cbn; try (now constructor).
  - now rewrite flat_map_app in IHexplore.
  - apply (sublist_app [] _ _ _ (sublist_nil _) IHexplore).
  - apply (sublist_app [] _ _ _ (sublist_nil _) IHexplore).
Qed.

Lemma explore_parts (todo : list search) log out missed : explore todo log out missed ->
  multi_part (out ++ missed) (flat_map hits todo).
Proof.
  induction 1 as [|q a todo log out missed _ (r & IH)|q a todo log out missed _ (r & IH)|q a todo log out missed _ (r & IH)
    |q b todo log out missed _ (r & IH)|q b todo log out missed _ (r & IH)|q b todo log out missed _ (r & IH)]; cbn.
  - exists []. constructor.
  - exists r. now constructor.
  - exists (a :: r). rewrite <- IH. perm.
  - exists r. rewrite <- IH. perm.
  - exists r. now rewrite flat_map_app in IH.
  - exists (flat_map hits b ++ r). rewrite <- IH. perm.
  - exists r. rewrite <- IH. perm.
Qed.

Lemma explore_count (todo : list search) log out missed : explore todo log out missed ->
  length log <= list_sum (map questions todo).
Proof.
  induction 1; cbn [length map list_sum fold_right questions] in *; change (fold_right Nat.add 0) with list_sum in *; try lia.
  rewrite map_app, list_sum_app in IHexplore. lia.
Qed.

(** Against a pure filter: [g a] says whether [a] is to be yielded. *)
Variable (ans : E -> bool) (g : A -> bool).
Fixpoint faithful (s : search) : Prop :=
  match s with
  | Hit q a => ans q = g a
  | Group q below =>
    (ans q = false -> Forall (fun a => g a = false) (flat_map hits below)) /\
    (fix go l := match l with [] => True | s :: r => faithful s /\ go r end) below
  end.

Lemma faithful_group q below : faithful (Group q below) <->
  (ans q = false -> Forall (fun a => g a = false) (flat_map hits below)) /\ Forall faithful below.
Proof.
  cbn [faithful]. split; intros [H1 H2]; (split; [exact H1|]); induction below as [|s r IH]; auto.
  - destruct H2 as [H2 H3]. constructor; [exact H2|]. apply IH; [|exact H3]. intros Hq. specialize (H1 Hq). cbn in H1. apply Forall_app in H1. apply H1.
  - inversion H2; subst. split; [assumption|]. apply IH; [|assumption]. intros Hq. specialize (H1 Hq). cbn in H1. apply Forall_app in H1. apply H1.
Qed.

Definition log_ok (log : list (E * option bool)) : Prop := Forall (fun e => snd e = Some (ans (fst e)) \/ snd e = None) log.

Lemma filter_none {T} (h : T -> bool) l : Forall (fun x => h x = false) l -> filter h l = [].
Proof. induction 1 as [|x l Hx _ IH]; cbn; [reflexivity|]. now rewrite Hx. Qed.

Lemma explore_faithful (todo : list search) log out missed : explore todo log out missed ->
  Forall faithful todo -> log_ok log ->
  Permutation (filter g (flat_map hits todo)) (out ++ filter g missed) /\ Forall (fun a => g a = true) out.
Proof.
  induction 1 as [|q a todo log out missed _ IH|q a todo log out missed _ IH|q a todo log out missed _ IH
    |q b todo log out missed _ IH|q b todo log out missed _ IH|q b todo log out missed _ IH]; intros HF HL;
    [split; constructor| | | | | |]; inversion HF as [|? ? Hs HF']; subst; inversion HL as [|? ? Hl HL']; subst; cbn [fst snd] in Hl;
    cbn [flat_map hits app].
  - destruct Hl as [[= Hl]|Hl]; [|discriminate]. cbn in Hs. destruct (IH HF' HL') as [IH1 IH2]. cbn. rewrite <- Hs, <- Hl. split; [now constructor|].
    constructor; [congruence|exact IH2].
  - destruct Hl as [[= Hl]|Hl]; [|discriminate]. cbn in Hs. cbn. rewrite <- Hs, <- Hl. auto.
  - destruct (IH HF' HL') as [IH1 IH2]. split; [|exact IH2]. cbn. destruct (g a); [|exact IH1]. rewrite IH1. perm.
  - destruct Hl as [[= Hl]|Hl]; [|discriminate]. apply faithful_group in Hs as [_ Hs]. destruct (IH (proj2 (Forall_app _ _ _) (conj Hs HF')) HL') as [IH1 IH2].
    rewrite flat_map_app in IH1. auto.
  - destruct Hl as [[= Hl]|Hl]; [|discriminate]. apply faithful_group in Hs as [Hs _]. specialize (Hs (eq_sym Hl)).
    rewrite filter_app, (filter_none _ _ Hs). auto.
  - destruct (IH HF' HL') as [IH1 IH2]. split; [|exact IH2]. rewrite !filter_app, IH1. perm.
Qed.

Lemma explore_no_panic (todo : list search) log out missed : explore todo log out missed ->
  Forall faithful todo -> log_ok log -> panics log = 0 -> missed = [] /\ out = filter g (flat_map hits todo).
Proof.
  unfold panics. induction 1 as [|q a todo log out missed _ IH|q a todo log out missed _ IH|q a todo log out missed _ IH
    |q b todo log out missed _ IH|q b todo log out missed _ IH|q b todo log out missed _ IH]; intros HF HL HP;
    [split; reflexivity| | | | | |]; inversion HF as [|? ? Hs HF']; subst; inversion HL as [|? ? Hl HL']; subst; cbn [fst snd] in Hl;
    cbn [flat_map hits app]; cbn [filter snd length] in HP; try discriminate.
  - destruct Hl as [[= Hl]|Hl]; [|discriminate]. cbn in Hs. destruct (IH HF' HL' HP) as [-> IH2]. cbn. rewrite <- Hs, <- Hl. split; [reflexivity|now f_equal].
  - destruct Hl as [[= Hl]|Hl]; [|discriminate]. cbn in Hs. cbn. rewrite <- Hs, <- Hl. auto.
  - apply faithful_group in Hs as [_ Hs]. destruct (IH (proj2 (Forall_app _ _ _) (conj Hs HF')) HL' HP) as [IH1 IH2].
    rewrite flat_map_app in IH2. auto.
  - destruct Hl as [[= Hl]|Hl]; [|discriminate]. apply faithful_group in Hs as [Hs _]. specialize (Hs (eq_sym Hl)).
    rewrite filter_app, (filter_none _ _ Hs). auto.
Qed.
End Explore.

(** *** [find] *)
Section Find.
Context {W T E A : Type} (test : W -> T -> option bool * W) (ask : T -> E).
Notation wl := (W * list (E * option bool))%type.
Notation search := (search E A).

Definition ltest (s : wl) (x : T) : option bool * wl :=
  let (a, w) := test (fst s) x in (a, (w, snd s ++ [(ask x, a)])).

(** What [find] does to a list of questions: it consumes some, [used]; the rest is [rest]. *)
Definition found (plan : T -> search) (l : list T) (o : outcome T) (rest : list T) (used : list (E * option bool)) : Prop :=
  match o with
  | Done => rest = [] /\ panics used = 0 /\
    forall R L O M, explore R L O M -> explore (map plan l ++ R) (used ++ L) O M
  | Yield x => (exists sk, l = sk ++ x :: rest) /\ panics used = 0 /\
    match plan x with
    | Hit _ a => forall R L O M, explore (map plan rest ++ R) L O M -> explore (map plan l ++ R) (used ++ L) (a :: O) M
    | Group _ b => forall R L O M, explore (b ++ map plan rest ++ R) L O M -> explore (map plan l ++ R) (used ++ L) O M
    end
  | Panicked => panics used = 1 /\ (exists sk x, l = sk ++ x :: rest) /\
    exists m, forall R L O M, explore (map plan rest ++ R) L O M -> explore (map plan l ++ R) (used ++ L) O (m ++ M)
  end.

Lemma found_step (plan : T -> search) x l o rest used : (match plan x with Hit q _ => q | Group q _ => q end) = ask x ->
  found plan l o rest used -> found plan (x :: l) o rest ((ask x, Some false) :: used).
Proof.
  intros Hq. unfold found.
  assert (HS : forall R L O M, explore (map plan l ++ R) L O M -> explore (map plan (x :: l) ++ R) ((ask x, Some false) :: L) O M).
  { intros R L O M He. cbn [map app]. destruct (plan x) as [q a|q b]; cbn in Hq; subst q; [now apply ex_no|now apply ex_skip]. }
  destruct o as [y| |].
  - intros ((sk & ->) & Hp & H). split; [exists (x :: sk); reflexivity|]. split; [exact Hp|].
    destruct (plan y); intros R L O M He; apply HS, H, He.
  - intros (H1 & Hp & H2). split; [exact H1|]. split; [exact Hp|]. intros R L O M He. apply HS, H2, He.
  - intros (Hp & (sk & y & ->) & m & H). split; [exact Hp|]. split; [exists (x :: sk), y; reflexivity|]. exists m. intros R L O M He. apply HS, H, He.
Qed.

Lemma found_yes (plan : T -> search) x l : (match plan x with Hit q _ => q | Group q _ => q end) = ask x ->
  found plan (x :: l) (Yield x) l [(ask x, Some true)].
Proof.
  intros Hq. unfold found. split; [exists []; reflexivity|]. split; [reflexivity|]. cbn [map].
  destruct (plan x) as [q a|q b] eqn:Ep; cbn in Hq; subst q; intros R L O M He; cbn [app].
  - now apply ex_yes.
  - now apply ex_below.
Qed.

Lemma found_panic (plan : T -> search) x l : (match plan x with Hit q _ => q | Group q _ => q end) = ask x ->
  found plan (x :: l) Panicked l [(ask x, None)].
Proof.
  intros Hq. unfold found. split; [reflexivity|]. split; [exists [], x; reflexivity|]. exists (hits (plan x)).
  intros R L O M He. cbn [map app]. destruct (plan x) as [q a|q b]; cbn in Hq; subst q; cbn [hits app]; [now apply ex_panic|now apply ex_group_panic].
Qed.

Lemma found_done (plan : T -> search) : found plan [] Done [] [].
Proof. unfold found. splits; auto. Qed.

(** The answer is one that the callback gave. *)
Definition answered (e : E * option bool) : Prop := exists w x, fst e = ask x /\ snd e = fst (test w x).

Lemma fx_find_spec (plan : T -> search) : (forall x, (match plan x with Hit q _ => q | Group q _ => q end) = ask x) ->
  forall l w lg, exists o rest w' used, fx_find ltest l (w, lg) = (o, rest, (w', lg ++ used)) /\ found plan l o rest used /\
    Forall answered used.
Proof.
  intros Hq. induction l as [|x l IH]; intros w lg; cbn [fx_find].
  - exists Done, [], w, []. rewrite app_nil_r. split; [reflexivity|]. split; [apply found_done|constructor].
  - unfold ltest at 1. cbn [fst snd]. assert (Ha : answered (ask x, fst (test w x))) by (exists w, x; auto).
    destruct (test w x) as [[[|]|] w1]; cbn [fst] in Ha.
    + exists (Yield x), l, w1, [(ask x, Some true)]. split; [reflexivity|]. split; [now apply found_yes|]. constructor; [exact Ha|constructor].
    + destruct (IH w1 (lg ++ [(ask x, Some false)])) as (o & rest & w' & used & E1 & HF & HA).
      exists o, rest, w', ((ask x, Some false) :: used). rewrite <- app_assoc in E1. split; [exact E1|]. split; [now apply found_step|]. now constructor.
    + exists Panicked, l, w1, [(ask x, None)]. split; [reflexivity|]. split; [now apply found_panic|]. constructor; [exact Ha|constructor].
Qed.
End Find.

(** *** Filter iterators *)
Section FxIterProof.
Context {W B K V Q : Type} (brw : K -> Q) (f : FxFilter W B Q).
Notation node := (node B K V).
Notation st := (@tree_stack B K V).
Notation fsearch := (search (fquestion B Q) (K * V)).
Notation flog := (list (fquestion B Q * option bool)).

Definition entry_search (e : K * V) : fsearch := Hit (QKey (brw (fst e))) e.
Definition slot_search (x : slot (list (K * V)) (list node)) : list fsearch :=
  match x with SLeaf es => map entry_search es | SInner cs => map (tree_search brw) cs end.
Definition agenda (s : st) : list fsearch := flat_map slot_search s.

Definition below (n : node) : list fsearch :=
  match n with Node _ (CLeaf es) => map entry_search es | Node _ (CInner cs) => map (tree_search brw) cs end.
Lemma tree_search_eq n : tree_search brw n = Group (QBounds (node_bounds n)) (below n).
Proof. destruct n as [b [cs|es]]; reflexivity. Qed.

Lemma find_nodes (cs : list node) w (lg : flog) :
  exists o rest w' used,
    fx_find (fun w n => fx_bounds (logged f) w (node_bounds n)) cs (w, lg) = (o, rest, (w', lg ++ used)) /\
    found (tree_search brw) cs o rest used /\ Forall (f_answered f) used.
Proof.
  destruct (fx_find_spec (fun w n => fx_bounds f w (node_bounds n)) (fun n : node => QBounds (node_bounds n)) (tree_search brw))
    with (l := cs) (w := w) (lg := lg) as (o & rest & w' & used & E1 & HF & HA).
  { intros n. now rewrite tree_search_eq. }
  exists o, rest, w', used. split; [exact E1|]. split; [exact HF|]. eapply Forall_impl; [|exact HA].
  intros [q a] (w0 & x & H1 & H2). cbn in *. subst q a. exists w0. reflexivity.
Qed.
Lemma find_entries (es : list (K * V)) w (lg : flog) :
  exists o rest w' used,
    fx_find (fun w kv => fx_key (logged f) w (brw (fst kv))) es (w, lg) = (o, rest, (w', lg ++ used)) /\
    found entry_search es o rest used /\ Forall (f_answered f) used.
Proof.
  destruct (fx_find_spec (fun w (kv : K * V) => fx_key f w (brw (fst kv))) (fun kv : K * V => QKey (brw (fst kv))) entry_search)
    with (l := es) (w := w) (lg := lg) as (o & rest & w' & used & E1 & HF & HA); [reflexivity|].
  exists o, rest, w', used. split; [exact E1|]. split; [exact HF|]. eapply Forall_impl; [|exact HA].
  intros [q a] (w0 & x & H1 & H2). cbn in *. subst q a. exists w0. reflexivity.
Qed.

Lemma agenda_app a b : agenda (a ++ b) = agenda a ++ agenda b.
Proof. apply flat_map_app. Qed.
Lemma agenda_empty (s : st) : Forall slot_empty s -> agenda s = [].
Proof.
  unfold agenda. induction 1 as [|x s Hx Hs IH]; cbn; [reflexivity|]. rewrite IH, app_nil_r. destruct Hx as [-> | ->]; reflexivity.
Qed.

Lemma panics_app {E'} (a b : list (E' * option bool)) : panics (a ++ b) = panics a + panics b.
Proof. unfold panics. now rewrite filter_app, app_length. Qed.

(** One call consumed [used] of the agenda. *)
Definition consumed (s : st) (o : outcome (K * V)) (s' : st) (used : flog) : Prop :=
  stack_ok s' /\ (o = Done -> Forall slot_empty s') /\ (panics used = unwound [o] /\ Forall (f_answered f) used) /\
  exists m, forall L O M, explore (agenda s') L O M -> explore (agenda s) (used ++ L) (yields [o] ++ O) (m ++ M).

Notation weight s := (list_sum (map (@slot_size B K V) s)).
Lemma fx_iter_loop_spec fuel level (s : st) w (lg : flog) : stack_ok s -> Forall slot_empty (firstn level s) ->
  2 * weight s + (length s - level) <= fuel ->
  exists o s' w' used, fx_iter_loop brw (logged f) fuel level s (w, lg) = Ok (o, s', (w', lg ++ used)) /\ consumed s o s' used.
Proof.
  revert level s w lg; induction fuel as [|fuel IH]; intros level s w lg Hok Hlow Hfuel; cbn [fx_iter_loop].
  { destruct (Nat.ltb_spec level (length s)); [lia|]. rewrite firstn_all2 in Hlow by lia.
    exists Done, s, w, []. rewrite app_nil_r. split; [reflexivity|]. split; [exact Hok|]. split; [auto|]. split; [now split|].
    exists []. auto. }
  destruct (Nat.ltb_spec level (length s)) as [Hlt|Hge].
  2: { rewrite firstn_all2 in Hlow by lia. exists Done, s, w, []. rewrite app_nil_r. split; [reflexivity|]. split; [exact Hok|]. split; [auto|]. split; [now split|].
    exists []. auto. }
  destruct (nth_error_exists level s Hlt) as [x Hx].
  assert (Hk := Hok _ _ Hx). destruct (split_at _ _ _ Hx) as (l1 & l2 & -> & Hl1).
  rewrite firstn_app, <- Hl1, firstn_all, Nat.sub_diag in Hlow. cbn [firstn] in Hlow. rewrite app_nil_r in Hlow.
  assert (Hp : forall z, agenda (l1 ++ z :: l2) = slot_search z ++ agenda l2).
  { intros z. rewrite agenda_app, (agenda_empty _ Hlow). reflexivity. }
  assert (Hset : forall z, slot_ok level z -> stack_ok (l1 ++ z :: l2)).
  { intros z Hz. assert (H := stack_ok_set _ _ z Hok Hz). rewrite <- Hl1, set_nth_middle in H. exact H. }
  destruct level as [|l].
  - destruct l1; [|discriminate]. cbn [app] in *. destruct x as [es|cs]; [|destruct Hk].
    cbn [stack_leaf nth_error bind]. destruct (find_entries es w lg) as (o & rest & w1 & used & -> & HF & HA).
    unfold stack_set_leaf. cbn [stack_leaf nth_error bind set_nth]. destruct o as [e| |]; cbn [found] in HF.
    + destruct HF as (_ & Hpn & HF). cbn [entry_search] in HF. exists (Yield e), (SLeaf rest :: l2), w1, used.
      split; [reflexivity|]. split; [apply Hset; exact I|]. split; [discriminate|]. split; [split; [rewrite Hpn; reflexivity|exact HA]|].
      exists []. intros L O M He. rewrite Hp in He |- *. cbn [slot_search] in *. now apply HF.
    + destruct HF as (-> & Hpn & HF).
      destruct (IH 1 (SLeaf [] :: l2) w1 (lg ++ used)) as (o & s' & w' & used' & E1 & G1 & G2 & G3 & m & G4).
      * apply Hset. exact I.
      * cbn. constructor; [now left|constructor].
      * cbn [map list_sum slot_size length fold_right] in *. lia.
      * exists o, s', w', (used ++ used'). rewrite app_assoc. split; [exact E1|]. split; [exact G1|]. split; [exact G2|].
        split; [destruct G3 as [G3 G3']; split; [rewrite panics_app, Hpn; exact G3|now apply Forall_app]|]. exists m. intros L O M He. apply G4 in He. rewrite Hp in He |- *. rewrite <- app_assoc.
        cbn [slot_search map app] in *. now apply HF.
    + destruct HF as (Hpn & _ & m & HF). exists Panicked, (SLeaf rest :: l2), w1, used.
      split; [reflexivity|]. split; [apply Hset; exact I|]. split; [discriminate|]. split; [split; [rewrite Hpn; reflexivity|exact HA]|].
      exists m. intros L O M He. rewrite Hp in He |- *. cbn [slot_search] in *. now apply HF.
  - destruct x as [es|cs]; [destruct Hk|]. cbn [slot_ok] in Hk.
    unfold stack_inner at 1. rewrite (nth_at l1 _ _ _ Hl1). cbn [bind].
    destruct (find_nodes cs w lg) as (o & rest & w1 & used & -> & HF & HA).
    unfold stack_set_inner at 1, stack_inner at 1. rewrite (nth_at l1 _ _ _ Hl1). cbn [bind]. rewrite (set_at_end l1 _ _ _ _ Hl1).
    destruct o as [n| |]; cbn [found] in HF.
    + destruct HF as ((sk & ->) & Hpn & HF). rewrite tree_search_eq in HF.
      apply Forall_app in Hk as [_ Hk]. inversion Hk as [|? ? Hkn Hkr]; subst.
      destruct (app_last_ _ _ Hl1) as (m1 & y & -> & Hm1).
      rewrite <- !app_assoc in *. cbn [app] in *.
      apply Forall_app in Hlow as [Hlow1 Hlow2]. assert (Hy : slot_empty y) by (inversion Hlow2; assumption).
      assert (Hoky : slot_ok l y). { apply Hok. apply nth_at. exact Hm1. }
      assert (Hok2 : forall z, slot_ok l z -> stack_ok (m1 ++ z :: SInner rest :: l2)).
      { intros z Hz. assert (H := Hset (SInner rest) Hkr). rewrite <- app_assoc in H. cbn [app] in H.
        assert (H' := stack_ok_set _ l z H Hz). rewrite (set_at_end m1 _ _ _ _ Hm1) in H'. exact H'. }
      assert (Hlow' : forall z, Forall slot_empty (firstn l (m1 ++ z :: SInner rest :: l2))).
      { intros z. rewrite firstn_app, <- Hm1, firstn_all, Nat.sub_diag. cbn. now rewrite app_nil_r. }
      assert (Hpend : forall z, agenda (m1 ++ z :: SInner rest :: l2) = slot_search z ++ map (tree_search brw) rest ++ agenda l2).
      { intros z. rewrite agenda_app, (agenda_empty _ Hlow1). reflexivity. }
      assert (Hfin : forall z, slot_ok l z -> slot_search z = below n -> slot_size z < node_size n ->
        exists o s' w' used', fx_iter_loop brw (logged f) fuel l (m1 ++ z :: SInner rest :: l2) (w1, lg ++ used) = Ok (o, s', (w', lg ++ used')) /\
          consumed (m1 ++ y :: SInner (sk ++ n :: rest) :: l2) o s' used').
      { intros z Hz1 Hz2 Hz3.
        destruct (IH l (m1 ++ z :: SInner rest :: l2) w1 (lg ++ used)) as (o & s' & w' & used' & E1 & G1 & G2 & G3 & m & G4).
        - now apply Hok2.
        - apply Hlow'.
        - rewrite !app_length in *. cbn [length] in *. rewrite !map_app, !list_sum_app in *.
          change (list_sum (map slot_size (z :: SInner rest :: l2))) with (slot_size z + (list_sum (map node_size rest) + weight l2)).
          change (list_sum (map slot_size (y :: SInner (sk ++ n :: rest) :: l2))) with (slot_size y + (list_sum (map node_size (sk ++ n :: rest)) + weight l2)) in Hfuel.
          rewrite map_app, list_sum_app in Hfuel. change (list_sum (map node_size (n :: rest))) with (node_size n + list_sum (map (@node_size B K V) rest)) in Hfuel.
          lia.
        - exists o, s', w', (used ++ used'). rewrite app_assoc. split; [exact E1|]. split; [exact G1|]. split; [exact G2|].
          split; [destruct G3 as [G3 G3']; split; [rewrite panics_app, Hpn; exact G3|now apply Forall_app]|]. exists m. intros L O M He. apply G4 in He. rewrite Hpend in He. rewrite Hz2 in He.
          specialize (Hp (SInner (sk ++ n :: rest))). rewrite <- app_assoc in Hp. cbn [app] in Hp. rewrite Hp. rewrite <- app_assoc.
          cbn [slot_search]. now apply HF. }
      destruct n as [bn [ncs|nes]]; destruct l as [|l'].
      * destruct Hkn.
      * cbn [node_children read_inner bind]. unfold stack_set_inner, stack_inner. rewrite (nth_at m1 _ _ _ Hm1).
        destruct y as [|ycs]; [destruct Hoky|]. cbn [bind]. rewrite (set_at_end m1 _ _ _ _ Hm1).
        apply Hfin; [exact Hkn|reflexivity|cbn; lia].
      * destruct m1; [|discriminate]. cbn [app] in *. cbn [node_children read_leaf bind].
        destruct y as [yes|]; [|destruct Hoky].
        unfold stack_set_leaf, stack_leaf. cbn [nth_error bind set_nth].
        apply Hfin; [exact I|reflexivity|cbn; lia].
      * destruct Hkn.
    + destruct HF as (-> & Hpn & HF).
      destruct (IH (S l + 1) (l1 ++ SInner [] :: l2) w1 (lg ++ used)) as (o & s' & w' & used' & E1 & G1 & G2 & G3 & m & G4).
      * apply Hset. constructor.
      * replace (l1 ++ SInner [] :: l2) with ((l1 ++ [SInner []]) ++ l2) by (now rewrite <- app_assoc).
        assert (El1 : length (l1 ++ [SInner []]) = S l + 1) by (rewrite app_length, Hl1; reflexivity).
        rewrite firstn_app, El1, Nat.sub_diag, <- El1, firstn_all. cbn [firstn]. rewrite app_nil_r. apply Forall_app. split; [exact Hlow|].
        constructor; [now right|constructor].
      * rewrite !app_length in *. cbn [length] in *. rewrite !map_app, !list_sum_app in *.
        change (list_sum (map slot_size (@SInner (list (K * V)) (list node) [] :: l2))) with (weight l2).
        change (list_sum (map slot_size (SInner cs :: l2))) with (slot_size (SInner cs) + weight l2) in Hfuel. lia.
      * exists o, s', w', (used ++ used'). rewrite app_assoc. split; [exact E1|]. split; [exact G1|]. split; [exact G2|].
        split; [destruct G3 as [G3 G3']; split; [rewrite panics_app, Hpn; exact G3|now apply Forall_app]|]. exists m. intros L O M He. apply G4 in He. rewrite Hp in He |- *. rewrite <- app_assoc.
        cbn [slot_search map app] in *. now apply HF.
    + destruct HF as (Hpn & (sk & n & ->) & m & HF). exists Panicked, (l1 ++ SInner rest :: l2), w1, used.
      split; [reflexivity|]. split; [apply Hset; apply Forall_app in Hk as [_ Hk]; inversion Hk; assumption|]. split; [discriminate|]. split; [split; [rewrite Hpn; reflexivity|exact HA]|].
      exists m. intros L O M He. rewrite Hp in He |- *. cbn [slot_search] in *. now apply HF.
Qed.

Lemma fx_iter_next_spec (s : st) w lg : stack_ok s ->
  exists o s' w' used, fx_iter_next brw (logged f) s (w, lg) = Ok (o, s', (w', lg ++ used)) /\ consumed s o s' used.
Proof. intros H. apply fx_iter_loop_spec; [exact H|constructor|]. unfold stack_fuel. lia. Qed.

(** Nothing is asked once everything is consumed. *)
Lemma fx_iter_loop_empty (s : st) fuel level w (lg : flog) : stack_ok s -> Forall slot_empty s -> length s <= fuel + level ->
  fx_iter_loop brw (logged f) fuel level s (w, lg) = Ok (Done, s, (w, lg)).
Proof.
  revert level; induction fuel as [|fuel IH]; intros level Hok He Hl; cbn [fx_iter_loop].
  { destruct (Nat.ltb_spec level (length s)); [lia|reflexivity]. }
  destruct (Nat.ltb_spec level (length s)) as [Hlt|Hge]; [|reflexivity].
  destruct (nth_error_exists level s Hlt) as [x Hx]. assert (Hk := Hok _ _ Hx). destruct (split_at _ _ _ Hx) as (l1 & l2 & Es & Hl1).
  assert (Hex : slot_empty x). { rewrite Es in He. apply Forall_app in He as [_ He]. now inversion He. }
  destruct level as [|l].
  - destruct Hex as [-> | ->]; [|destruct Hk]. unfold stack_set_leaf, stack_leaf. rewrite Hx. cbn [bind fx_find].
    destruct l1; [|discriminate]. cbn [app] in Es. rewrite Es at 1. cbn [set_nth]. rewrite <- Es. apply IH; auto. lia.
  - destruct Hex as [-> | ->]; [destruct Hk|]. unfold stack_set_inner, stack_inner. rewrite Hx. cbn [bind fx_find].
    rewrite Es at 1. rewrite (set_at_end l1 _ _ _ _ Hl1), <- Es. apply IH; auto. lia.
Qed.
End FxIterProof.

(** *** Sessions *)
Section Session.
Context {W E S A : Type} (next : S -> W * list (E * option bool) -> res (outcome A * S * (W * list (E * option bool)))).
Context (Inv : S -> Prop) (todo : S -> list (search E A)) (spent : S -> Prop) (answ : E * option bool -> Prop).
Context (Hspent : forall s, Inv s -> spent s -> todo s = [] /\ forall w lg, next s (w, lg) = Ok (Done, s, (w, lg))).
Context (Hnext : forall s w lg, Inv s -> exists o s' w' used, next s (w, lg) = Ok (o, s', (w', lg ++ used)) /\
  Inv s' /\ (o = Done -> spent s') /\ (panics used = unwound [o] /\ Forall answ used) /\
  exists m, forall L O M, explore (todo s') L O M -> explore (todo s) (used ++ L) (yields [o] ++ O) (m ++ M)).

Lemma session_spent gs s w lg : Inv s -> spent s -> exists w', session next gs s w lg = Ok (repeat Done (length gs), s, w', lg).
Proof.
  intros HI Hs. revert w; induction gs as [|g gs IH]; intros w; cbn [session]; [eauto|].
  destruct (Hspent s HI Hs) as [_ ->]. cbn [bind]. destruct (IH (g w)) as (w' & ->). cbn. eauto.
Qed.

Lemma session_spec gs s w lg : Inv s ->
  exists os s' w' used, session next gs s w lg = Ok (os, s', w', lg ++ used) /\
    Inv s' /\ length os = length gs /\ fused os /\ (In Done os -> spent s') /\ panics used = unwound os /\ Forall answ used /\
    exists m, forall L O M, explore (todo s') L O M -> explore (todo s) (used ++ L) (yields os ++ O) (m ++ M).
Proof.
  revert s w lg; induction gs as [|g gs IH]; intros s w lg HI; cbn [session].
  - exists [], s, w, []. rewrite app_nil_r. splits; auto; [exists [], 0; auto|intros []|exists []; auto].
  - destruct (Hnext s (g w) lg HI) as (o & s1 & w1 & used1 & -> & HI1 & Hd1 & [Hp1 Ha1] & m1 & Hm1). cbn [bind].
    assert (Ho : o = Done \/ o <> Done) by (destruct o; auto; right; discriminate). destruct Ho as [-> | Ho].
    + destruct (session_spent gs s1 w1 (lg ++ used1) HI1 (Hd1 eq_refl)) as (w2 & ->). cbn [bind].
      exists (Done :: repeat Done (length gs)), s1, w2, used1. splits; auto.
      * cbn. now rewrite repeat_length.
      * exists [], (Datatypes.S (length gs)). split; [reflexivity|intros []].
      * rewrite Hp1. unfold unwound. cbn. clear. induction (length gs); cbn; auto.
      * exists m1. intros L O M He. apply Hm1 in He.
        assert (Ey : yields (Done :: repeat (@Done A) (length gs)) = []) by (clear; unfold yields; cbn; induction (length gs); cbn; auto).
        rewrite Ey. exact He.
    + destruct (IH s1 w1 (lg ++ used1) HI1) as (os & s' & w' & used & -> & HI' & Hl & (os1 & k & Eo & Hk) & Hd & Hp & Ha & m & Hm). cbn [bind].
      exists (o :: os), s', w', (used1 ++ used). rewrite app_assoc. splits; auto.
      * cbn. now f_equal.
      * exists (o :: os1), k. split; [cbn; now f_equal|]. intros [H|H]; [congruence|auto].
      * intros [H|H]; [congruence|auto].
      * rewrite panics_app, Hp1, Hp. unfold unwound. cbn [filter]. destruct o; cbn; reflexivity.
      * now apply Forall_app.
      * exists (m1 ++ m). intros L O M He. rewrite <- !app_assoc. apply Hm in He. apply Hm1 in He.
        assert (Ey : yields (o :: os) = yields [o] ++ yields os) by (unfold yields; cbn; now rewrite app_nil_r). rewrite Ey, <- app_assoc. exact He.
Qed.

(** The same with an end: a finished search has asked everything, an unfinished one can be finished. *)
Lemma session_explores gs s w lg : Inv s ->
  exists os s' w' used rest out missed, session next gs s w lg = Ok (os, s', w', lg ++ used) /\
    length os = length gs /\ fused os /\ panics used = unwound os /\ Forall answ used /\
    explore (todo s) (used ++ rest) (yields os ++ out) missed /\ (In Done os -> rest = [] /\ out = []).
Proof.
  intros HI. destruct (session_spec gs s w lg HI) as (os & s' & w' & used & E1 & HI' & Hl & Hf & Hd & Hp & Ha & m & Hm).
  assert (Hdone : In Done os \/ ~ In Done os).
  { clear. induction os as [|[a| |] os IH]; [right; intros []| |left; now left|]; (destruct IH as [IH|IH]; [left; now right|right; intros [H|H]; [discriminate|auto]]). }
  destruct Hdone as [H|H].
  - destruct (Hspent s' HI' (Hd H)) as [Ht _]. exists os, s', w', used, [], [], (m ++ []). splits; auto.
    apply Hm. rewrite Ht. constructor.
  - destruct (explore_reject (todo s')) as (L & HL). exists os, s', w', used, L, [], (m ++ []). splits; auto; contradiction.
Qed.
End Session.

Section FxIterNew.
Context {W B K V Q : Type} (brw : K -> Q) (f : FxFilter W B Q).
Notation node := (node B K V).
Notation st := (@tree_stack B K V).

Lemma fx_iter_new (t : rtree B K V) : kinded (fst t) (snd t) ->
  exists s : st, iter_new t = Ok s /\ stack_ok s /\ agenda brw s = below brw (snd t).
Proof.
  destruct t as [level [b ch]]. cbn [fst snd]. intros Hk. unfold iter_new. cbn [fst snd].
  assert (Hinit : forall m, @stack_ok B K V (stack_new [] (repeat [] m))).
  { intros m [|i] x; cbn; [intros [= <-]; exact I|]. intros Hx. apply nth_error_In in Hx. apply in_map_iff in Hx as (c & <- & Hc).
    apply repeat_spec in Hc as ->. constructor. }
  assert (Hpend : forall m, flat_map (slot_search brw) (map SInner (repeat (@nil node) m)) = []).
  { induction m; cbn; auto. }
  destruct level as [|l], ch as [cs|es]; cbn in Hk; try contradiction; cbn [children_at node_children read_leaf read_inner bind].
  - cbn. eexists; split; [reflexivity|]. split; [apply (stack_ok_set _ 0 (SLeaf es) (Hinit 0)); exact I|]. cbn. apply app_nil_r.
  - destruct (app_last_ (stack_new [] (repeat [] (S l)) : st) (S l)) as (s1 & y & Es & Hl).
    { unfold stack_new. cbn. now rewrite map_length, repeat_length. }
    assert (Hok := Hinit (S l)). cbn [fst]. rewrite Es in Hok |- *.
    assert (Hy : slot_ok (S l) y) by (apply Hok; apply (nth_at s1 y [] _ Hl)). destruct y as [|ycs]; [destruct Hy|].
    unfold stack_set_inner, stack_inner. rewrite (nth_at s1 _ _ _ Hl). cbn [bind]. rewrite (set_at_end s1 _ _ _ _ Hl).
    eexists; split; [reflexivity|]. split.
    + assert (H' := stack_ok_set _ (S l) (SInner cs) Hok Hk). now rewrite (set_at_end s1 _ _ _ _ Hl) in H'.
    + rewrite agenda_app. cbn [agenda flat_map slot_search below]. rewrite app_nil_r.
      assert (Ea : agenda brw (stack_new [] (repeat [] (S l)) : st) = []) by (exact (Hpend (S l))).
      rewrite Es, agenda_app in Ea. apply app_eq_nil in Ea as [-> _]. reflexivity.
Qed.

Lemma fx_iter_sessions (s : st) gs w lg : stack_ok s ->
  exists os s' w' used rest out missed, session (fx_iter_next brw (logged f)) gs s w lg = Ok (os, s', w', lg ++ used) /\
    length os = length gs /\ fused os /\ panics used = unwound os /\ Forall (f_answered f) used /\
    explore (agenda brw s) (used ++ rest) (yields os ++ out) missed /\ (In Done os -> rest = [] /\ out = []).
Proof.
  apply (session_explores (fx_iter_next brw (logged f)) stack_ok (agenda brw) (Forall slot_empty) (f_answered f)).
  - intros s0 H0 He. split; [now apply agenda_empty|]. intros w0 lg0. apply fx_iter_loop_empty; [exact H0|exact He|]. unfold stack_fuel. lia.
  - intros s0 w0 lg0 H0. destruct (fx_iter_next_spec brw f s0 w0 lg0 H0) as (o & s' & w' & used & E1 & G1 & G2 & G3 & G4).
    exists o, s', w', used. auto.
Qed.
End FxIterNew.

(** *** Answers *)
Section Answers.
Context {B K V Q : Type} (brw : K -> Q).
Notation node := (node B K V).

Lemma hits_tree (n : node) : hits (tree_search brw n) = entries n.
Proof.
  induction n as [b es|b cs IH] using node_ind'; cbn [tree_search hits entries].
  - induction es as [|e es IHes]; cbn; [reflexivity|]. now rewrite IHes.
  - induction IH as [|c cs Hc _ IHcs]; cbn; [reflexivity|]. now rewrite Hc, IHcs.
Qed.

Definition f_ans (f : SpatialFilter B Q) (q : fquestion B Q) : bool :=
  match q with QBounds b => test_bounds f b | QKey k => test_key f k end.

Context (P : Params B K) (cfg : config) (ok : K -> Prop) (incl : B -> B -> Prop) (f : SpatialFilter B Q).

Lemma faithful_tree lo strict level (n : node) : filter_lawful P brw incl ok (test_bounds f) (test_key f) ->
  wf cfg ok (rel_cover P incl) lo strict level n -> faithful (f_ans f) (fun kv => test_key f (brw (fst kv))) (tree_search brw n).
Proof.
  intros HF. revert lo strict level; induction n as [b es|b cs IH] using node_ind'; intros lo strict level Hwf.
  - apply faithful_group. split.
    + intros Hb. cbn [f_ans] in Hb. assert (Hh : hits (tree_search brw (Node b (CLeaf es))) = entries (Node b (CLeaf es))) by apply hits_tree.
      change (flat_map hits (map (fun e => Hit (QKey (brw (fst e))) e) es)) with (hits (tree_search brw (Node b (CLeaf es)))). rewrite Hh.
      assert (HE := cover_prune brw f P ok incl b (entries (Node b (CLeaf es))) HF (wf_rel _ _ _ _ _ _ _ Hwf) (wf_ok _ _ _ _ _ _ _ Hwf) Hb).
      apply Forall_forall. intros kv Hin. destruct (test_key f (brw (fst kv))) eqn:Ek; [|reflexivity].
      exfalso. assert (In kv []) by (rewrite <- HE; apply filter_In; auto). contradiction.
    + apply Forall_forall. intros s Hs. apply in_map_iff in Hs as (e & <- & _). reflexivity.
  - apply faithful_group. split.
    + intros Hb. cbn [f_ans] in Hb. assert (Hh : hits (tree_search brw (Node b (CInner cs))) = entries (Node b (CInner cs))) by apply hits_tree.
      match goal with |- Forall _ ?l => change l with (hits (tree_search brw (Node b (CInner cs)))) end. rewrite Hh.
      assert (HE := cover_prune brw f P ok incl b (entries (Node b (CInner cs))) HF (wf_rel _ _ _ _ _ _ _ Hwf) (wf_ok _ _ _ _ _ _ _ Hwf) Hb).
      apply Forall_forall. intros kv Hin. destruct (test_key f (brw (fst kv))) eqn:Ek; [|reflexivity].
      exfalso. assert (In kv []) by (rewrite <- HE; apply filter_In; auto). contradiction.
    + destruct level as [|l]; [destruct (wf_inv _ _ _ _ _ _ _ Hwf) as (? & ? & ?); discriminate|].
      rewrite wf_inner in Hwf. destruct Hwf as (_ & _ & Hcs). apply Forall_forall. intros s Hs. apply in_map_iff in Hs as (c & <- & Hc).
      rewrite Forall_forall in IH, Hcs. destruct (Hcs c Hc) as [Hcw _]. eapply IH; eassumption.
Qed.
End Answers.

(** *** Joins *)
Section ProductFind.
Context {W T0 T1 E A : Type} (test : W -> T0 -> T1 -> option bool * W) (ask : T0 -> T1 -> E).
Notation wl := (W * list (E * option bool))%type.

Definition ltest2 (s : wl) (x : T0) (y : T1) : option bool * wl :=
  let (a, w) := test (fst s) x y in (a, (w, snd s ++ [(ask x y, a)])).
Notation test1 := (fun w (p : T0 * T1) => test w (fst p) (snd p)).
Notation ask1 := (fun p : T0 * T1 => ask (fst p) (snd p)).

Lemma fx_product_find_spec (plan : T0 * T1 -> search E A) :
  (forall x, (match plan x with Hit q _ => q | Group q _ => q end) = ask1 x) ->
  forall fuel p w lg, prod_ok p -> length (items p) <= fuel ->
  exists o p' w' used, fx_product_find ltest2 fuel p (w, lg) = Ok (o, p', (w', lg ++ used)) /\ prod_ok p' /\
    found plan (items p) o (items p') used /\ Forall (answered test1 ask1) used.
Proof.
  intros Hq. induction fuel as [|fuel IH]; intros p w lg Hok Hlen; destruct (product_next_spec p Hok) as (H1 & H2 & H3);
    cbn [fx_product_find]; destruct (product_next p) as [o p'] eqn:E1; cbn [fst snd] in *;
    (destruct (items p) as [|x l] eqn:Ei; subst o; cbn [hd_error tl] in *;
     [exists Done, p', w, []; rewrite app_nil_r, H3; split; [reflexivity|]; split; [exact H2|]; split; [apply found_done|constructor]|]).
  - cbn in Hlen. lia.
  - unfold ltest2 at 1. cbn [fst snd]. assert (Ha : answered test1 ask1 (ask1 x, fst (test w (fst x) (snd x)))) by (exists w, x; auto).
    destruct (test w (fst x) (snd x)) as [[[|]|] w1]; cbn [fst] in Ha.
    + exists (Yield x), p', w1, [(ask1 x, Some true)]. split; [reflexivity|]. split; [exact H2|].
      split; [rewrite H3; exact (found_yes ask1 plan x l (Hq x))|]. constructor; [exact Ha|constructor].
    + destruct (IH p' w1 (lg ++ [(ask1 x, Some false)]) H2) as (o & p'' & w' & used & E2 & Hp & HF & HA); [rewrite H3; cbn in Hlen; lia|].
      exists o, p'', w', ((ask1 x, Some false) :: used). rewrite <- app_assoc in E2. split; [exact E2|]. split; [exact Hp|].
      rewrite H3 in HF. split; [exact (found_step ask1 plan x l o _ used (Hq x) HF)|]. now constructor.
    + exists Panicked, p', w1, [(ask1 x, None)]. split; [reflexivity|]. split; [exact H2|].
      split; [rewrite H3; exact (found_panic ask1 plan x l (Hq x))|]. constructor; [exact Ha|constructor].
Qed.
End ProductFind.

Section FxJoinProof.
Context {W B0 B1 K0 K1 V0 V1 Q0 Q1 : Type} (brw0 : K0 -> Q0) (brw1 : K1 -> Q1) (f : FxJoinFilter W B0 B1 Q0 Q1).
Notation node0 := (node B0 K0 V0).
Notation node1 := (node B1 K1 V1).
Notation epair := ((K0 * V0) * (K1 * V1))%type.
Notation st := (@join_stack B0 B1 K0 K1 V0 V1).
Notation jslot := (slot (product (K0 * V0) (K1 * V1)) (product node0 node1)).
Notation jsearch := (search (jquestion B0 B1 Q0 Q1) epair).
Notation jlog := (list (jquestion B0 B1 Q0 Q1 * option bool)).
Context (pad0 pad1 : nat) (Hpad : pad0 = 0 \/ pad1 = 0).

Definition pair_hit (p : epair) : jsearch := Hit (QKey2 (brw0 (fst (fst p))) (brw1 (fst (snd p)))) p.
Definition pair_group (l : nat) (p : node0 * node1) : jsearch := pair_search brw0 brw1 l (fst p) (snd p).
Definition jslot_search (i : nat) (x : jslot) : list jsearch :=
  match i, x with
  | 0, SLeaf p => map pair_hit (items p)
  | S l, SInner p => map (pair_group l) (items p)
  | _, _ => []
  end.
Fixpoint jagenda (i : nat) (s : st) : list jsearch :=
  match s with [] => [] | x :: s => jslot_search i x ++ jagenda (S i) s end.
Definition jbelow (l : nat) (p : node0 * node1) : list jsearch :=
  match pair_group l p with Group _ b => b | Hit _ _ => [] end.

Lemma pair_group_eq l p : pair_group l p = Group (QBounds2 (node_bounds (fst p)) (node_bounds (snd p))) (jbelow l p).
Proof. unfold jbelow, pair_group. destruct l; reflexivity. Qed.

Lemma jagenda_app i a b : jagenda i (a ++ b) = jagenda i a ++ jagenda (i + length a) b.
Proof.
  revert i; induction a as [|x a IH]; intros i; cbn; [now rewrite Nat.add_0_r|].
  rewrite IH. replace (i + S (length a)) with (S i + length a) by lia. now rewrite app_assoc.
Qed.
Lemma jagenda_empty i s : Forall jslot_empty s -> jagenda i s = [].
Proof.
  intros H; revert i; induction H as [|x s Hx _ IH]; intros i; cbn; [reflexivity|]. rewrite IH, app_nil_r.
  destruct i, x as [p|p]; cbn in *; try reflexivity; now rewrite Hx.
Qed.

Lemma find_pairs l (p : product node0 node1) w (lg : jlog) : prod_ok p ->
  exists o p' w' used,
    fx_product_find (fun w n0 n1 => fxj_bounds (jlogged f) w (node_bounds n0) (node_bounds n1)) (product_size p) p (w, lg)
      = Ok (o, p', (w', lg ++ used)) /\ prod_ok p' /\
    found (pair_group l) (items p) o (items p') used /\ Forall (j_answered f) used.
Proof.
  intros Hok.
  destruct (fx_product_find_spec (fun w (n0 : node0) (n1 : node1) => fxj_bounds f w (node_bounds n0) (node_bounds n1))
    (fun (n0 : node0) (n1 : node1) => QBounds2 (node_bounds n0) (node_bounds n1)) (pair_group l))
    with (fuel := product_size p) (p := p) (w := w) (lg := lg) as (o & p' & w' & used & E1 & Hp & HF & HA).
  { intros x. now rewrite pair_group_eq. }
  { exact Hok. }
  { apply items_length. }
  exists o, p', w', used. split; [exact E1|]. split; [exact Hp|]. split; [exact HF|]. eapply Forall_impl; [|exact HA].
  intros [q a] (w0 & x & H1 & H2). cbn in *. subst q a. exists w0. reflexivity.
Qed.
Lemma find_pair_entries (p : product (K0 * V0) (K1 * V1)) w (lg : jlog) : prod_ok p ->
  exists o p' w' used,
    fx_product_find (fun w e0 e1 => fxj_key (jlogged f) w (brw0 (fst e0)) (brw1 (fst e1))) (product_size p) p (w, lg)
      = Ok (o, p', (w', lg ++ used)) /\ prod_ok p' /\
    found pair_hit (items p) o (items p') used /\ Forall (j_answered f) used.
Proof.
  intros Hok.
  destruct (fx_product_find_spec (fun w (e0 : K0 * V0) (e1 : K1 * V1) => fxj_key f w (brw0 (fst e0)) (brw1 (fst e1)))
    (fun (e0 : K0 * V0) (e1 : K1 * V1) => QKey2 (brw0 (fst e0)) (brw1 (fst e1))) pair_hit)
    with (fuel := product_size p) (p := p) (w := w) (lg := lg) as (o & p' & w' & used & E1 & Hp & HF & HA).
  { reflexivity. }
  { exact Hok. }
  { apply items_length. }
  exists o, p', w', used. split; [exact E1|]. split; [exact Hp|]. split; [exact HF|]. eapply Forall_impl; [|exact HA].
  intros [q a] (w0 & x & H1 & H2). cbn in *. subst q a. exists w0. reflexivity.
Qed.

Lemma cands_eq {B K V} (n : node B K V) : cands n = below_or_self n.
Proof. destruct n as [b [cs|es]]; reflexivity. Qed.

Lemma fx_start_join l n0 n1 (s1 : st) y s2 :
  pair_ok pad0 pad1 l (n0, n1) -> length s1 = l -> jslot_ok pad0 pad1 l y ->
  exists z, start_join (l - pad0, n0) (l - pad1, n1) (s1 ++ y :: s2) = Ok (s1 ++ z :: s2) /\
    jslot_ok pad0 pad1 l z /\ jslot_search l z = jbelow l (n0, n1) /\ jweight z < pair_size (n0, n1).
Proof.
  intros Hp Hl Hy. pose (f0 := {| jtest_bounds := fun _ _ => true; jtest_key := fun _ _ => true |} : JoinFilter B0 B1 Q0 Q1).
  destruct (start_join_spec brw0 brw1 f0 pad0 pad1 Hpad l n0 n1 s1 y s2 Hp Hl Hy) as (z & E1 & Hz1 & _ & Hz3).
  exists z. split; [exact E1|]. split; [exact Hz1|]. split; [|exact Hz3].
  destruct Hp as [Hk0 Hk1]. cbn [fst snd] in Hk0, Hk1. unfold start_join in E1. cbn [fst snd] in E1.
  assert (Hch : forall (pad : nat) B K V (n : node B K V), kinded (l - pad) n -> children_at (l - pad) n = Ok (node_children n)).
  { intros pad B K V [b [cs|es]] H; destruct (l - pad); cbn in H; try contradiction; reflexivity. }
  rewrite (Hch pad0 _ _ _ _ Hk0), (Hch pad1 _ _ _ _ Hk1) in E1. cbn [bind] in E1.
  unfold jbelow, pair_group. cbn [fst snd].
  assert (Hmax : Nat.max (l - pad0) (l - pad1) = l) by (destruct Hpad; lia). rewrite Hmax in E1.
  assert (Hset : forall cs0 cs1, (if l =? 0 then Panic else stack_set_inner (s1 ++ y :: s2) l (product_new cs0 cs1)) = Ok (s1 ++ z :: s2) ->
     exists l', l = S l' /\ jslot_search l z = map (pair_group l') (rows cs0 cs1)).
  { intros cs0 cs1 H. destruct l as [|l']; [discriminate|]. exists l'. split; [reflexivity|]. cbn [Nat.eqb] in H. unfold stack_set_inner, stack_inner in H.
    rewrite (nth_at s1 _ _ _ Hl) in H. destruct y; [discriminate|]. cbn [bind] in H. rewrite (set_at_end s1 _ _ _ _ Hl) in H.
    injection H as H. apply app_inv_head in H. injection H as H. rewrite <- H. cbn [jslot_search]. now rewrite (proj1 (items_new cs0 cs1)). }
  destruct n0 as [b0 [cs0|es0]], n1 as [b1 [cs1|es1]]; cbn [node_children] in E1.
  - destruct (Hset _ _ E1) as (l' & -> & ->). reflexivity.
  - destruct (Hset _ _ E1) as (l' & -> & ->). reflexivity.
  - destruct (Hset _ _ E1) as (l' & -> & ->). reflexivity.
  - assert (El : l = 0).
    { destruct l as [|l']; [reflexivity|]. destruct Hpad as [-> | ->]; cbn in Hk0, Hk1; contradiction. }
    clear Hset Hmax Hch. destruct s1; [|cbn in Hl; lia]. subst l. cbn [app] in E1. unfold stack_set_leaf, stack_leaf in E1. cbn [nth_error] in E1.
    destruct y; [|discriminate]. cbn [bind set_nth] in E1. injection E1 as <-. 
    transitivity (map pair_hit (items (product_new es0 es1))); [reflexivity|].
    assert (Ei := proj1 (items_new es0 es1)).
    rewrite Ei. reflexivity.
Qed.

(** One call consumed [used] of the agenda. *)
Definition jconsumed (s : st) (o : outcome epair) (s' : st) (used : jlog) : Prop :=
  jstack_ok pad0 pad1 0 s' /\ (o = Done -> Forall jslot_empty s') /\ (panics used = unwound [o] /\ Forall (j_answered f) used) /\
  exists m, forall L O M, explore (jagenda 0 s') L O M -> explore (jagenda 0 s) (used ++ L) (yields [o] ++ O) (m ++ M).

Notation weight s := (list_sum (map (@jweight B0 B1 K0 K1 V0 V1) s)).
Lemma fx_join_loop_spec fuel level (s : st) w (lg : jlog) : jstack_ok pad0 pad1 0 s -> Forall jslot_empty (firstn level s) ->
  2 * weight s + (length s - level) <= fuel ->
  exists o s' w' used, fx_join_loop brw0 brw1 (jlogged f) fuel level (s, (pad0, pad1)) (w, lg) = Ok (o, (s', (pad0, pad1)), (w', lg ++ used)) /\
    jconsumed s o s' used.
Proof.
  revert level s w lg; induction fuel as [|fuel IH]; intros level s w lg Hok Hlow Hfuel; cbn [fx_join_loop].
  { destruct (Nat.ltb_spec level (length s)); [lia|]. rewrite firstn_all2 in Hlow by lia.
    exists Done, s, w, []. rewrite app_nil_r. split; [reflexivity|]. split; [exact Hok|]. split; [auto|]. split; [now split|].
    exists []. auto. }
  destruct (Nat.ltb_spec level (length s)) as [Hlt|Hge].
  2: { rewrite firstn_all2 in Hlow by lia. exists Done, s, w, []. rewrite app_nil_r. split; [reflexivity|]. split; [exact Hok|]. split; [auto|]. split; [now split|].
    exists []. auto. }
  destruct (nth_error_exists level s Hlt) as [x Hx]. apply nth_error_split in Hx as (l1 & l2 & -> & Hl1).
  rewrite firstn_app, <- Hl1, firstn_all, Nat.sub_diag in Hlow. cbn [firstn] in Hlow. rewrite app_nil_r in Hlow.
  apply (jstack_ok_app pad0 pad1 Hpad) in Hok as [Hok1 [Hk Hok2]]. cbn [Nat.add] in Hk, Hok2. rewrite Hl1 in Hk, Hok2.
  assert (Hp : forall z, jagenda 0 (l1 ++ z :: l2) = jslot_search level z ++ jagenda (S level) l2).
  { intros z. rewrite jagenda_app, (jagenda_empty _ _ Hlow), <- Hl1. reflexivity. }
  assert (Hset : forall z, jslot_ok pad0 pad1 level z -> jstack_ok pad0 pad1 0 (l1 ++ z :: l2)).
  { intros z Hz. apply (jstack_ok_app pad0 pad1 Hpad). split; [exact Hok1|]. cbn [Nat.add]. rewrite Hl1. split; [exact Hz|exact Hok2]. }
  assert (Hw : forall z, weight (l1 ++ z :: l2) = weight l1 + (jweight z + weight l2)).
  { intros z. rewrite map_app, list_sum_app. reflexivity. }
  rewrite app_length in Hfuel. cbn [length] in Hfuel. rewrite Hw in Hfuel.
  destruct level as [|l].
  - destruct l1; [|discriminate]. cbn [app length] in *. destruct x as [p|p]; [|contradiction]. cbn [jslot_ok] in Hk.
    cbn [stack_leaf nth_error bind]. destruct (find_pair_entries p w lg Hk) as (o & p' & w1 & used & -> & Hp' & HF & HA). cbn [bind].
    unfold stack_set_leaf. cbn [stack_leaf nth_error bind set_nth].
    destruct o as [e| |]; cbn [found] in HF.
    + destruct HF as (_ & Hpn & HF). cbn [pair_hit] in HF. exists (Yield e), (SLeaf p' :: l2), w1, used.
      split; [reflexivity|]. split; [apply Hset; exact Hp'|]. split; [discriminate|]. split; [split; [rewrite Hpn; reflexivity|exact HA]|].
      exists []. intros L O M He. rewrite Hp in He |- *. cbn [jslot_search] in *. now apply HF.
    + destruct HF as (Ei & Hpn & HF).
      destruct (IH 1 (SLeaf p' :: l2) w1 (lg ++ used)) as (o & s' & w' & used' & E1 & G1 & G2 & [G3 G3'] & m & G4).
      * apply Hset. exact Hp'.
      * cbn. constructor; [exact Ei|constructor].
      * rewrite (Hw (SLeaf p')). cbn [map list_sum fold_right jweight length] in *. lia.
      * exists o, s', w', (used ++ used'). rewrite app_assoc. split; [exact E1|]. split; [exact G1|]. split; [exact G2|].
        split; [split; [rewrite panics_app, Hpn; exact G3|now apply Forall_app]|]. exists m. intros L O M He. apply G4 in He. rewrite Hp in He |- *. rewrite <- app_assoc.
        cbn [jslot_search] in *. rewrite Ei in He. now apply HF.
    + destruct HF as (Hpn & _ & m & HF). exists Panicked, (SLeaf p' :: l2), w1, used.
      split; [reflexivity|]. split; [apply Hset; exact Hp'|]. split; [discriminate|]. split; [split; [rewrite Hpn; reflexivity|exact HA]|].
      exists m. intros L O M He. rewrite Hp in He |- *. cbn [jslot_search] in *. now apply HF.
  - destruct x as [p|p]; [contradiction|]. cbn [jslot_ok] in Hk. destruct Hk as [Hk Hks].
    unfold stack_inner at 1. rewrite (nth_at l1 _ _ _ Hl1). cbn [bind].
    destruct (find_pairs l p w lg Hk) as (o & p' & w1 & used & -> & Hp' & HF & HA). cbn [bind].
    unfold stack_set_inner at 1, stack_inner at 1. rewrite (nth_at l1 _ _ _ Hl1). cbn [bind]. rewrite (set_at_end l1 _ _ _ _ Hl1).
    destruct o as [[n0 n1]| |]; cbn [found] in HF.
    + destruct HF as ((sk & Ei) & Hpn & HF). rewrite pair_group_eq in HF.
      rewrite Ei in Hks. apply Forall_app in Hks as [_ Hks]. inversion Hks as [|? ? Hkn Hkr]; subst.
      destruct (app_last_ _ _ Hl1) as (m1 & y & -> & Hm1). rewrite <- !app_assoc. cbn [app].
      apply (jstack_ok_app pad0 pad1 Hpad) in Hok1 as [Hokm [Hy _]]. cbn [Nat.add] in Hy. rewrite Hm1 in Hy.
      apply Forall_app in Hlow as [Hlow1 Hlow2].
      destruct (fx_start_join l n0 n1 m1 y (SInner p' :: l2) Hkn Hm1 Hy) as (z & -> & Hz1 & Hz2 & Hz3). cbn [bind].
      assert (Hpend : jagenda 0 (m1 ++ z :: SInner p' :: l2) = jbelow l (n0, n1) ++ map (pair_group l) (items p') ++ jagenda (S (S l)) l2).
      { rewrite jagenda_app, (jagenda_empty _ _ Hlow1). cbn [Nat.add app jagenda]. rewrite Hm1, Hz2. reflexivity. }
      destruct (IH l (m1 ++ z :: SInner p' :: l2) w1 (lg ++ used)) as (o & s' & w' & used' & E1 & G1 & G2 & [G3 G3'] & m & G4).
      * apply (jstack_ok_app pad0 pad1 Hpad). split; [exact Hokm|]. cbn [Nat.add]. rewrite Hm1. split; [exact Hz1|]. split; [split; [exact Hp'|exact Hkr]|].
        exact Hok2.
      * rewrite firstn_app, <- Hm1, firstn_all, Nat.sub_diag. cbn. now rewrite app_nil_r.
      * rewrite app_length in *. cbn [length] in *. rewrite map_app, list_sum_app in *.
        change (list_sum (map jweight (z :: SInner p' :: l2))) with (jweight z + (list_sum (map pair_size (items p')) + weight l2)).
        assert (Hwp : jweight (SInner p) = list_sum (map pair_size sk) + (pair_size (n0, n1) + list_sum (map pair_size (items p')))).
        { cbn [jweight]. rewrite Ei, map_app, list_sum_app. reflexivity. }
        rewrite Hwp in Hfuel. lia.
      * exists o, s', w', (used ++ used'). rewrite app_assoc. split; [exact E1|]. split; [exact G1|]. split; [exact G2|].
        split; [split; [rewrite panics_app, Hpn; exact G3|now apply Forall_app]|]. exists m. intros L O M He. apply G4 in He. rewrite Hpend in He.
        specialize (Hp (SInner p)). rewrite <- app_assoc in Hp. cbn [app] in Hp. rewrite Hp. rewrite <- app_assoc.
        cbn [jslot_search]. now apply HF.
    + destruct HF as (Ei & Hpn & HF).
      destruct (IH (S l + 1) (l1 ++ SInner p' :: l2) w1 (lg ++ used)) as (o & s' & w' & used' & E1 & G1 & G2 & [G3 G3'] & m & G4).
      * apply Hset. split; [exact Hp'|rewrite Ei; constructor].
      * replace (l1 ++ SInner p' :: l2) with ((l1 ++ [SInner p']) ++ l2) by (now rewrite <- app_assoc).
        assert (El1 : length (l1 ++ [SInner p']) = S l + 1) by (rewrite app_length, Hl1; reflexivity).
        rewrite firstn_app, El1, Nat.sub_diag, <- El1, firstn_all. cbn [firstn]. rewrite app_nil_r. apply Forall_app. split; [exact Hlow|].
        constructor; [exact Ei|constructor].
      * rewrite app_length in *. cbn [length] in *. rewrite Hw. cbn [jweight]. rewrite Ei. cbn [map list_sum fold_right]. lia.
      * exists o, s', w', (used ++ used'). rewrite app_assoc. split; [exact E1|]. split; [exact G1|]. split; [exact G2|].
        split; [split; [rewrite panics_app, Hpn; exact G3|now apply Forall_app]|]. exists m. intros L O M He. apply G4 in He. rewrite Hp in He |- *. rewrite <- app_assoc.
        cbn [jslot_search] in *. rewrite Ei in He. now apply HF.
    + destruct HF as (Hpn & (sk & n & Ei) & m & HF). exists Panicked, (l1 ++ SInner p' :: l2), w1, used.
      split; [reflexivity|]. split.
      { apply Hset. split; [exact Hp'|]. rewrite Ei in Hks. apply Forall_app in Hks as [_ Hks]. inversion Hks; assumption. }
      split; [discriminate|]. split; [split; [rewrite Hpn; reflexivity|exact HA]|].
      exists m. intros L O M He. rewrite Hp in He |- *. cbn [jslot_search] in *. now apply HF.
Qed.

Lemma fx_product_find_empty {T0 T1} (test : W * jlog -> T0 -> T1 -> option bool * (W * jlog)) fuel p w : prod_ok p -> items p = [] ->
  fx_product_find test fuel p w = Ok (Done, p, w).
Proof.
  intros Hok Hi. destruct (product_next_spec p Hok) as (H1 & _ & _). rewrite Hi in H1.
  assert (E1 : product_next p = (None, p)).
  { unfold product_next in *. destruct (rw_get (fst p)); [|reflexivity]. destruct (snd p); [reflexivity|].
    destruct (rw_advance (fst p)). discriminate. }
  destruct fuel; cbn; rewrite E1; reflexivity.
Qed.

Lemma fx_join_loop_empty (s : st) fuel level w (lg : jlog) : jstack_ok pad0 pad1 0 s -> Forall jslot_empty s -> length s <= fuel + level ->
  fx_join_loop brw0 brw1 (jlogged f) fuel level (s, (pad0, pad1)) (w, lg) = Ok (Done, (s, (pad0, pad1)), (w, lg)).
Proof.
  revert level; induction fuel as [|fuel IH]; intros level Hok He Hl; cbn [fx_join_loop].
  { destruct (Nat.ltb_spec level (length s)); [lia|reflexivity]. }
  destruct (Nat.ltb_spec level (length s)) as [Hlt|Hge]; [|reflexivity].
  destruct (nth_error_exists level s Hlt) as [x Hx]. assert (Hs := Hx). apply nth_error_split in Hs as (l1 & l2 & Es & Hl1).
  assert (Hex : jslot_empty x). { rewrite Es in He. apply Forall_app in He as [_ He]. now inversion He. }
  assert (Hk : jslot_ok pad0 pad1 level x).
  { rewrite Es in Hok. apply (jstack_ok_app pad0 pad1 Hpad) in Hok as [_ [Hk _]]. cbn [Nat.add] in Hk. now rewrite Hl1 in Hk. }
  assert (Hsame : set_nth level x s = s) by (rewrite Es; apply (set_at_end l1 _ _ _ _ Hl1)).
  destruct level as [|l], x as [p|p]; try contradiction; cbn in Hk, Hex.
  - unfold stack_set_leaf, stack_leaf. rewrite Hx. cbn [bind]. rewrite (fx_product_find_empty _ _ _ _ Hk Hex). cbn [bind].
    rewrite Hsame. apply IH; auto. lia.
  - unfold stack_set_inner, stack_inner. rewrite Hx. cbn [bind]. rewrite (fx_product_find_empty _ _ _ _ (proj1 Hk) Hex). cbn [bind].
    rewrite Hsame. apply IH; auto. lia.
Qed.

Lemma fx_join_sessions (s : st) gs w lg : jstack_ok pad0 pad1 0 s ->
  exists os s' w' used rest out missed,
    session (fx_join_next brw0 brw1 (jlogged f)) gs (s, (pad0, pad1)) w lg = Ok (os, s', w', lg ++ used) /\
    length os = length gs /\ fused os /\ panics used = unwound os /\ Forall (j_answered f) used /\
    explore (jagenda 0 s) (used ++ rest) (yields os ++ out) missed /\ (In Done os -> rest = [] /\ out = []).
Proof.
  intros Hok.
  apply (session_explores (fx_join_next brw0 brw1 (jlogged f)) (fun it => snd it = (pad0, pad1) /\ jstack_ok pad0 pad1 0 (fst it))
    (fun it => jagenda 0 (fst it)) (fun it => Forall jslot_empty (fst it)) (j_answered f) ) with (s := (s, (pad0, pad1))).
  - intros [s0 pads] [E1 H0] He. cbn [fst snd] in *. subst pads. split; [now apply jagenda_empty|]. intros w0 lg0.
    apply fx_join_loop_empty; [exact H0|exact He|]. cbn [fst]. unfold join_fuel. lia.
  - intros [s0 pads] w0 lg0 [E1 H0]. cbn [fst snd] in *. subst pads.
    destruct (fx_join_loop_spec (join_fuel s0) 0 s0 w0 lg0 H0) as (o & s' & w' & used & E1 & G1 & G2 & G3 & G4); [constructor|apply (jweight_fuel pad0 pad1 Hpad)|].
    exists o, (s', (pad0, pad1)), w', used. auto.
  - auto.
Qed.
End FxJoinProof.

Section FxJoinNew.
Context {W B0 B1 K0 K1 V0 V1 Q0 Q1 : Type} (brw0 : K0 -> Q0) (brw1 : K1 -> Q1) (f : FxJoinFilter W B0 B1 Q0 Q1).

Lemma fx_join_start (a : rtree B0 K0 V0) (b : rtree B1 K1 V1) : kinded (fst a) (snd a) -> kinded (fst b) (snd b) ->
  let h := Nat.max (fst a) (fst b) in
  exists s, start_join a b (stack_new (product_new [] []) (repeat (product_new [] []) h)) = Ok s /\
    jstack_ok (h - fst a) (h - fst b) 0 s /\ jagenda brw0 brw1 0 s = jbelow brw0 brw1 h (snd a, snd b).
Proof.
  destruct a as [l0 n0], b as [l1 n1]. cbn [fst snd]. intros H0 H1.
  set (h := Nat.max l0 l1). cbv zeta. set (pad0 := h - l0). set (pad1 := h - l1).
  assert (Hpad : pad0 = 0 \/ pad1 = 0) by (unfold pad0, pad1, h; lia).
  assert (Hp : pair_ok pad0 pad1 h (n0, n1)).
  { split; cbn [fst snd]; unfold pad0, pad1; [replace (h - (h - l0)) with l0 by (unfold h; lia)|replace (h - (h - l1)) with l1 by (unfold h; lia)]; assumption. }
  assert (Hinit : forall m i, jstack_ok (B0 := B0) (B1 := B1) (K0 := K0) (K1 := K1) (V0 := V0) (V1 := V1) pad0 pad1 (S i) (map SInner (repeat (product_new [] []) m))).
  { induction m as [|m IH]; intros i; cbn; [exact I|]. split; [|apply IH]. split; [now right|constructor]. }
  assert (Hpi : forall m i, jagenda brw0 brw1 (B0 := B0) (B1 := B1) (V0 := V0) (V1 := V1) (S i) (map SInner (repeat (product_new [] []) m)) = []).
  { induction m as [|m IH]; intros i; cbn; [reflexivity|]. apply IH. }
  set (s0 := stack_new (product_new [] []) (repeat (product_new [] []) h) : @join_stack B0 B1 K0 K1 V0 V1).
  assert (Hsplit : exists s1 y, s0 = s1 ++ [y] /\ length s1 = h).
  { apply app_last_. unfold s0, stack_new. cbn. now rewrite map_length, repeat_length. }
  destruct Hsplit as (s1 & y & Es & Hl).
  assert (Hok0 : jstack_ok pad0 pad1 0 s0) by (split; [now right|apply Hinit]).
  assert (Hpe : jagenda brw0 brw1 0 s0 = []) by (cbn; apply Hpi).
  rewrite Es in Hok0, Hpe. apply (jstack_ok_app pad0 pad1 Hpad) in Hok0 as [Hok1 [Hy _]]. cbn [Nat.add] in Hy. rewrite Hl in Hy.
  rewrite (jagenda_app brw0 brw1 pad0 pad1 Hpad) in Hpe. apply app_eq_nil in Hpe as [Hpe _].
  assert (Hl0 : l0 = h - pad0) by (unfold pad0, h; lia). assert (Hl1 : l1 = h - pad1) by (unfold pad1, h; lia).
  destruct (fx_start_join brw0 brw1 pad0 pad1 Hpad h n0 n1 s1 y [] Hp Hl Hy) as (z & E & Hz1 & Hz2 & _).
  rewrite <- Hl0, <- Hl1 in E. exists (s1 ++ [z]). rewrite Es. split; [exact E|]. split.
  - apply (jstack_ok_app pad0 pad1 Hpad). split; [exact Hok1|]. cbn [Nat.add jstack_ok]. rewrite Hl. auto.
  - rewrite (jagenda_app brw0 brw1 pad0 pad1 Hpad), Hpe. cbn [app jagenda Nat.add]. rewrite app_nil_r, Hl. exact Hz2.
Qed.
End FxJoinNew.

Section JAnswers.
Context {B0 B1 K0 K1 V0 V1 Q0 Q1 : Type} (brw0 : K0 -> Q0) (brw1 : K1 -> Q1).
Notation node0 := (node B0 K0 V0).
Notation node1 := (node B1 K1 V1).
Notation epair := ((K0 * V0) * (K1 * V1))%type.

Lemma pairs_rows_all (cs0 : list node0) (cs1 : list node1) :
  Permutation (flat_map (fun p => list_prod (entries (fst p)) (entries (snd p))) (rows cs0 cs1)) (list_prod (flat_map entries cs0) (flat_map entries cs1)).
Proof.
  pose (f0 := {| jtest_bounds := fun _ _ => true; jtest_key := fun _ _ => true |} : JoinFilter B0 B1 Q0 Q1).
  assert (H := pairs_rows brw0 brw1 f0 cs0 cs1). cbn [jtest_key f0] in H.
  assert (Ht : forall (T : Type) (l : list T), filter (fun _ => true) l = l) by (induction l; cbn; congruence).
  rewrite Ht in H. rewrite <- H. apply perm_flat_map, Forall_forall. intros p _. now rewrite Ht.
Qed.

Lemma hits_pair_leaves (es0 : list (K0 * V0)) (es1 : list (K1 * V1)) :
  flat_map hits (map (fun p : epair => Hit (@QKey2 B0 B1 Q0 Q1 (brw0 (fst (fst p))) (brw1 (fst (snd p)))) p) (all_pairs es0 es1)) = rows es0 es1.
Proof.
  change (all_pairs es0 es1) with (rows es0 es1). induction (rows es0 es1) as [|p l IH]; cbn; [reflexivity|]. now rewrite IH.
Qed.

Lemma hits_pair h pad0 pad1 (n0 : node0) (n1 : node1) : (pad0 = 0 \/ pad1 = 0) -> kinded (h - pad0) n0 -> kinded (h - pad1) n1 ->
  Permutation (hits (pair_search brw0 brw1 h n0 n1)) (list_prod (entries n0) (entries n1)).
Proof.
  intros Hpad. revert n0 n1; induction h as [|h IH]; intros [b0 ch0] [b1 ch1] H0 H1.
  - cbn [pair_search node_children hits]. destruct ch0 as [cs0|es0]; [destruct H0|]. destruct ch1 as [cs1|es1]; [destruct H1|].
    rewrite hits_pair_leaves. apply rows_perm.
  - assert (Hc : forall pad B K V (n : node B K V) x, kinded (S h - pad) n -> In x (cands n) -> kinded (h - pad) x).
    { intros pad B K V [b [cs|es]] x H Hx; cbn [cands node_children] in Hx.
      - destruct (S h - pad) as [|k] eqn:Ek; cbn in H; [contradiction|]. replace (h - pad) with k by lia. rewrite Forall_forall in H. auto.
      - destruct (S h - pad) as [|k] eqn:Ek; cbn in H; [|contradiction]. replace (h - pad) with 0 by lia. destruct Hx as [<-|[]]. exact I. }
    assert (Hstep : Permutation (flat_map hits (map (fun p => pair_search brw0 brw1 h (fst p) (snd p)) (rows (cands (Node b0 ch0)) (cands (Node b1 ch1)))))
      (list_prod (entries (Node b0 ch0)) (entries (Node b1 ch1)))).
    { rewrite (entries_cands (Node b0 ch0)), (entries_cands (Node b1 ch1)), <- pairs_rows_all, flat_map_concat_map, map_map, <- flat_map_concat_map.
      apply perm_flat_map, Forall_forall. intros [x0 x1] Hx. apply rows_in in Hx as [Hx0 Hx1]. cbn [fst snd] in *.
      apply IH; [eapply (Hc pad0); eassumption|eapply (Hc pad1); eassumption]. }
    cbn [pair_search node_children hits]. destruct ch0 as [cs0|es0], ch1 as [cs1|es1]; try exact Hstep.
    rewrite hits_pair_leaves. apply rows_perm.
Qed.

Definition j_ans (f : JoinFilter B0 B1 Q0 Q1) (q : jquestion B0 B1 Q0 Q1) : bool :=
  match q with QBounds2 b0 b1 => jtest_bounds f b0 b1 | QKey2 q0 q1 => jtest_key f q0 q1 end.

Context (f : JoinFilter B0 B1 Q0 Q1).
Context (P0 : Params B0 K0) (P1 : Params B1 K1) (cfg0 cfg1 : config) (ok0 : K0 -> Prop) (ok1 : K1 -> Prop).
Context (incl0 : B0 -> B0 -> Prop) (incl1 : B1 -> B1 -> Prop).
Context (HF : join_filter_lawful P0 P1 brw0 brw1 incl0 incl1 ok0 ok1 (jtest_bounds f) (jtest_key f)).

Lemma good_kinded {B K V} (P : Params B K) incl ok cfg l (n : node B K V) : good P incl ok cfg l n -> kinded l n.
Proof. intros (lo & strict & H). eapply wf_kinded, H. Qed.

Lemma faithful_pair h pad0 pad1 (n0 : node0) (n1 : node1) : (pad0 = 0 \/ pad1 = 0) ->
  good P0 incl0 ok0 cfg0 (h - pad0) n0 -> good P1 incl1 ok1 cfg1 (h - pad1) n1 ->
  faithful (j_ans f) (fun p : epair => jtest_key f (brw0 (fst (fst p))) (brw1 (fst (snd p)))) (pair_search brw0 brw1 h n0 n1).
Proof.
  intros Hpad. revert n0 n1; induction h as [|h IH]; intros n0 n1 H0 H1.
  all: match goal with |- faithful _ _ (pair_search _ _ ?h _ _) =>
    assert (Hq : forall q below, pair_search brw0 brw1 h n0 n1 = Group q below -> q = QBounds2 (node_bounds n0) (node_bounds n1) ->
       Forall (faithful (j_ans f) (fun p : epair => jtest_key f (brw0 (fst (fst p))) (brw1 (fst (snd p))))) below ->
       faithful (j_ans f) (fun p : epair => jtest_key f (brw0 (fst (fst p))) (brw1 (fst (snd p)))) (pair_search brw0 brw1 h n0 n1));
    [intros q below E1 Eq Hb; rewrite E1; apply faithful_group; split; [|exact Hb]; subst q; intros Hr; cbn [j_ans] in Hr;
     assert (HE := cover_prune_pair brw0 brw1 f P0 P1 cfg0 cfg1 ok0 ok1 incl0 incl1 HF _ _ n0 n1 H0 H1 Hr);
     cbn [fst snd] in HE;
     assert (Hh := hits_pair h pad0 pad1 n0 n1 Hpad (good_kinded _ _ _ _ _ _ H0) (good_kinded _ _ _ _ _ _ H1)); rewrite E1 in Hh; cbn [hits] in Hh;
     apply Forall_forall; intros p Hin; destruct (jtest_key f (brw0 (fst (fst p))) (brw1 (fst (snd p)))) eqn:Ek; [|reflexivity];
     exfalso; apply (Permutation_in _ Hh) in Hin;
     assert (In p []) by (rewrite <- HE; apply filter_In; split; assumption); contradiction|] end.
  - destruct n0 as [b0 ch0], n1 as [b1 ch1]. eapply Hq; [reflexivity|reflexivity|]. cbn [node_children].
    destruct ch0 as [cs0|es0]; [constructor|]. destruct ch1 as [cs1|es1]; [constructor|].
    apply Forall_forall. intros s Hs. apply in_map_iff in Hs as (e & <- & _). reflexivity.
  - assert (Hstep : Forall (faithful (j_ans f) (fun p : epair => jtest_key f (brw0 (fst (fst p))) (brw1 (fst (snd p)))))
      (map (fun p => pair_search brw0 brw1 h (fst p) (snd p)) (rows (cands n0) (cands n1)))).
    { apply Forall_forall. intros s Hs. apply in_map_iff in Hs as ([x0 x1] & <- & Hx). apply rows_in in Hx as [Hx0 Hx1]. cbn [fst snd] in *.
      assert (G0 := good_cands _ _ _ _ _ _ _ H0). assert (G1 := good_cands _ _ _ _ _ _ _ H1). rewrite Forall_forall in G0, G1. auto. }
    destruct n0 as [b0 ch0], n1 as [b1 ch1]. eapply Hq; [reflexivity|reflexivity|]. cbn [node_children].
    destruct ch0 as [cs0|es0], ch1 as [cs1|es1]; try exact Hstep.
    apply Forall_forall. intros s Hs. apply in_map_iff in Hs as (e & <- & _). reflexivity.
Qed.
End JAnswers.

Lemma list_sum_cons x l : list_sum (x :: l) = x + list_sum l.
Proof. reflexivity. Qed.

Lemma questions_tree {B K V Q} (brw : K -> Q) (n : node B K V) :
  questions (tree_search brw n) = node_count n + length (entries n).
Proof.
  induction n as [b es|b cs IH] using node_ind'; cbn [tree_search questions node_count entries].
  - cbn [Nat.add]. f_equal. rewrite map_map. induction es as [|e es IHes]; cbn [map length]; [reflexivity|].
    rewrite list_sum_cons. change (1 + list_sum (map (fun x => questions (Hit (E:=fquestion B Q) (QKey (brw (fst x))) x)) es) = S (length es)). rewrite IHes. reflexivity.
  - cbn [Nat.add]. f_equal. rewrite map_map. induction IH as [|c cs Hc _ IHcs]; cbn [map flat_map]; [reflexivity|].
    rewrite app_length, !list_sum_cons, Hc, IHcs. lia.
Qed.

Lemma reachable_any {B K V} (P : Params B K) cfg (ok : K -> Prop) (t : rtree B K V) :
  reachable P cfg ok t -> reachable P cfg any_key t.
Proof.
  induction 1.
  - apply r_new.
  - eapply r_insert; eauto. exact I.
  - eapply r_insert_unique; eauto. exact I.
  - eapply r_remove; eauto.
  - eapply r_clone; eauto.
  - eapply r_values; eauto.
Qed.
