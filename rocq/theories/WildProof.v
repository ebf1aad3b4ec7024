(** User code that answers as it likes: specifications, the splitter, insertion and lookup below the root. *)
From Verif Require Export WildSpec CrashOps.

(** *** Choosing an index *)
Lemma wmin_from_in {A} (cmp : nat -> A -> A -> comparison) i x l : In (wmin_from cmp i x l) (x :: l).
Proof.
  revert i x; induction l as [|y l IH]; intros i x; cbn [wmin_from]; [now left|].
  destruct (IH (S i) (match cmp i x y with Gt => y | _ => x end)) as [E|Hin]; [|right; now right].
  rewrite <- E. destruct (cmp i x y); cbn; auto.
Qed.
Lemma wmin_by_in {A} (cmp : nat -> A -> A -> comparison) l x : wmin_by cmp l = Some x -> In x l.
Proof. destruct l as [|y l]; [discriminate|]. intros [= <-]. apply wmin_from_in. Qed.
Lemma wmin_by_some {A} (cmp : nat -> A -> A -> comparison) l : l <> [] -> exists x, wmin_by cmp l = Some x.
Proof. destruct l as [|y l]; [congruence|]. intros _. eexists. reflexivity. Qed.

Section Choice.
Context {B K V N : Type} (O : nat -> nat -> answers B K V N) (U : numops N).

Lemma wselect_spec t cs b : cs <> [] -> exists i, wselect O U t cs b = Some i /\ i < length cs.
Proof.
  intros Hne. unfold wselect. destruct (wmin_by_some (wselect_cmp O U t b) (enumerate cs)) as [[i x] E].
  { destruct cs; [congruence|discriminate]. }
  rewrite E. exists i. split; [reflexivity|]. apply wmin_by_in, in_enumerate, nth_error_lt in E. exact E.
Qed.

Context {T : Type} (bnd : nat -> nat -> T -> B).

Lemma wwc_loop1_idx t ov ivs g i1 M :
  (forall i v, In (i, v) ivs -> i < M) -> i1 < M -> snd (fold_left (wwc_loop1 O U bnd t ov) ivs (g, i1)) < M.
Proof.
  revert g i1; induction ivs as [|[i v] ivs IH]; intros g i1 Hin Hi; cbn [fold_left]; [exact Hi|].
  unfold wwc_loop1 at 2. destruct (nu_gt _ _ _).
  - apply IH; [firstorder|]. apply (Hin i v). now left.
  - apply IH; [firstorder|assumption].
Qed.

Lemma wwc_loop2_idx t len ov i vi jvs g i1 i2 M :
  i < M -> (forall j v, In (j, v) jvs -> i < j < M) -> i1 < M -> i1 < i2 <= M ->
  forall g' j1 j2, fold_left (wwc_loop2 O U bnd t len ov i vi) jvs (g, i1, i2) = (g', j1, j2) ->
  j1 < M /\ j1 < j2 <= M.
Proof.
  revert g i1 i2; induction jvs as [|[j v] jvs IH]; intros g i1 i2 Hi Hin H1 H2 g' j1 j2; cbn [fold_left].
  - intros [= <- <- <-]. auto.
  - unfold wwc_loop2 at 2. destruct (nu_gt _ _ _).
    + apply IH; auto; [firstorder|]. specialize (Hin j v (or_introl eq_refl)). lia.
    + apply IH; auto. firstorder.
Qed.

Lemma wwc_outer_idx t len ov (l : list T) s M g i1 i2 :
  s + length l = M -> i1 < M -> i1 < i2 <= M ->
  forall g' j1 j2, wwc_outer O U bnd t len ov (combine (seq s (length l)) l) (g, i1, i2) = (g', j1, j2) ->
  j1 < M /\ j1 < j2 <= M.
Proof.
  revert s g i1 i2; induction l as [|x l IH]; intros s g i1 i2 HM H1 H2 g' j1 j2; cbn -[wwc_loop2].
  - intros [= <- <- <-]. auto.
  - cbn [length] in HM.
    destruct (fold_left _ _ _) as [[g2 k1] k2] eqn:E.
    assert (Hk : k1 < M /\ k1 < k2 <= M).
    { eapply wwc_loop2_idx; [| | | |exact E]; try lia.
      intros j v Hj. apply in_combine_seq in Hj as [Hj1 Hj2]. apply nth_error_lt in Hj2. lia. }
    intros H. eapply IH; [| | |exact H]; lia.
Qed.

Lemma wseed_split_groups_spec t values ov : values <> [] ->
  exists values' seed, wseed_split_groups O U bnd t values ov = Ok (values', seed)
    /\ Permutation (ov :: values) (seed :: values') /\ length values' = length values.
Proof.
  intros Hne. unfold wseed_split_groups.
  assert (Hw : exists i1 i2, wworst_combination O U bnd t values ov = Ok (i1, i2) /\ i1 < length values /\ i1 < i2 <= length values).
  { unfold wworst_combination. destruct values as [|v0 vs]; [congruence|]. set (values := v0 :: vs) in *.
    destruct (fold_left (wwc_loop1 O U bnd t ov) _ _) as [g i1] eqn:E.
    assert (H1 : i1 < length values).
    { change i1 with (snd (g, i1)). rewrite <- E. apply wwc_loop1_idx.
      - intros i v Hin. apply in_enumerate in Hin. now apply nth_error_lt in Hin.
      - cbn; lia. }
    destruct (wwc_outer _ _ _ _ _ _ _ _) as [[g' j1] j2] eqn:E2.
    exists j1, j2. split; [reflexivity|].
    eapply (wwc_outer_idx t (length values) ov values 0); [| | |exact E2]; lia. }
  destruct Hw as (i1 & i2 & -> & H1 & H2). cbn [bind].
  destruct (slice_swap_spec 0 i1 values) as (vs & Es & Hp & Hl & _); [lia|lia|].
  rewrite Es. cbn [bind]. rewrite Hl. destruct (Nat.ltb_spec i2 (length values)).
  - destruct (nth_error_exists i2 vs) as [x Hx]; [lia|]. rewrite Hx.
    do 2 eexists. split; [reflexivity|]. rewrite set_nth_length. split; [|assumption].
    rewrite Hp. destruct (nth_error_split_set i2 x ov vs Hx) as (l1 & l2 & -> & _ & ->). perm.
  - do 2 eexists. split; [reflexivity|]. split; [now rewrite Hp|assumption].
Qed.

Lemma wbest_candidate_spec t cs b : cs <> [] -> exists i v, wbest_candidate O U bnd t cs b = Some (i, v) /\ i < length cs.
Proof.
  intros Hne. unfold wbest_candidate.
  match goal with |- context [wmin_by ?f ?l] => destruct (wmin_by_some f l) as [[i v] E] end.
  { destruct cs; [congruence|discriminate]. }
  exists i, v. split; [exact E|]. apply wmin_by_in, in_map_iff in E as ([j x] & [= <- _] & Hin).
  apply in_enumerate, nth_error_lt in Hin. exact Hin.
Qed.
End Choice.

(** ** Specifications *)
Section WSpec.
Context {K V : Type}.
Notation xthing := (xthing K V).
Notation D := (D K V).
Notation X := (X K V).
(** [np]: neither user code nor the library panics. *)
Context (crash : nat -> bool) (gv : list xthing) (np : Prop) (Hnc : np -> forall i, crash i = false).
Notation dspec := (dspec gv).
Notation cspec := (cspec gv False).

(** From a state in which [c] groups of user code were run: a step that returns, or unwinds. *)
Definition wspec {A E} (c : nat) (m : X A E) (H : list xthing)
  (th : A -> list xthing) (QA : nat -> A -> Prop) (te : E -> list xthing) (QE : nat -> E -> Prop) : Prop :=
  forall s L, x_calls s = c -> xown gv s (H ++ L) ->
  exists o s', m s = Some (o, s') /\ c <= x_calls s' /\
  match o with
  | inl a => QA (x_calls s') a /\ xown gv s' (th a ++ L)
  | inr e => ~ np /\ QE (x_calls s') e /\ exists leak, xown gv s' (te e ++ leak ++ L)
  end.

Lemma wspec_perm {A E} c (m : X A E) H H' th QA te QE :
  Permutation H H' -> wspec c m H' th QA te QE -> wspec c m H th QA te QE.
Proof using Type. intros Hp Hm s L Hc Ho. apply Hm; [exact Hc|]. eapply xown_perm; [|exact Ho]. now rewrite Hp. Qed.

Lemma wspec_mono {A E} c (m : X A E) H th (QA QA' : nat -> A -> Prop) te (QE QE' : nat -> E -> Prop) :
  (forall c' a, c <= c' -> QA c' a -> QA' c' a) -> (~ np -> forall c' e, c <= c' -> QE c' e -> QE' c' e) ->
  wspec c m H th QA te QE -> wspec c m H th QA' te QE'.
Proof using Type.
  intros HQ HE Hm s L Hc Ho. destruct (Hm s L Hc Ho) as ([a|e] & s' & E' & Ec & HR); [exists (inl a), s'|exists (inr e), s'];
    (split; [exact E'|split; [exact Ec|]]).
  - split; [now apply HQ|apply HR].
  - destruct HR as (Hn & H1 & H2). split; [exact Hn|]. split; [now apply HE|exact H2].
Qed.

Lemma wspec_ret {A E} c (a : A) H th (QA : nat -> A -> Prop) te (QE : nat -> E -> Prop) :
  QA c a -> Permutation H (th a) -> wspec c (dret (inl a)) H th QA te QE.
Proof using Type.
  intros HQ Hp s L Hc Ho. exists (inl a), s. subst c. splits; auto. eapply xown_perm; [|exact Ho]. now rewrite Hp.
Qed.

Lemma wspec_dbind {A C E} c (m : D A) (k : A -> X C E) H H1 F (th : A -> list xthing) Q th' QA te QE :
  Permutation H (H1 ++ F) -> dspec m H1 th Q -> (forall a, Q a -> wspec c (k a) (th a ++ F) th' QA te QE) ->
  wspec c (dbind m k) H th' QA te QE.
Proof using Type.
  intros Hp Hm Hk s L Hc Ho. destruct (Hm s (F ++ L)) as (a & s' & E' & Ec & Ha & Ho').
  { eapply xown_perm; [|exact Ho]. rewrite Hp. perm. }
  destruct (Hk a Ha s' L) as (o & s2 & E2 & Ec2 & HR).
  { congruence. }
  { eapply xown_perm; [|exact Ho']. perm. }
  exists o, s2. unfold dbind. rewrite E', E2. splits; auto.
Qed.

Lemma wspec_unwind {A E} c (m : D E) H (th : A -> list xthing) QA te (QE : nat -> E -> Prop) :
  ~ np -> cspec m H te (QE c) -> wspec c (dbind m (fun e => dret (inr e))) H th QA te QE.
Proof using Type.
  intros Hr Hm s L Hc Ho. destruct (Hm s L Ho) as (e & s' & E' & Ec & HQ & leak & Ho' & _). exists (inr e), s'. unfold dbind.
  rewrite E'. unfold dret. rewrite Hc in Ec. rewrite Ec. splits; eauto.
Qed.

Lemma wspec_unwind1 {A E C} c (m : D C) (n : E) H (th : A -> list xthing) QA te (QE : nat -> E -> Prop) :
  ~ np -> cspec (dbind m (fun _ => dret n)) H te (QE c) -> wspec c (dbind m (fun _ => dret (inr n))) H th QA te QE.
Proof using Type.
  intros Hr Hm s L Hc Ho. destruct (Hm s L Ho) as (e & s' & E' & Ec & HQ & leak & Ho' & _). unfold dbind in *.
  destruct (m s) as [[c0 s1]|]; [|discriminate]. unfold dret in *. injection E' as -> ->. exists (inr e), s'.
  rewrite Hc in Ec. rewrite Ec. splits; eauto.
Qed.

Lemma wspec_bind {A E C E'} c (m : X A E) (k : A -> X C E') (h : E -> D E')
  H H1 F th QA te QE th' QA' te' (QE' : nat -> E' -> Prop) :
  Permutation H (H1 ++ F) -> wspec c m H1 th QA te QE ->
  (forall c' a, c <= c' -> QA c' a -> wspec c' (k a) (th a ++ F) th' QA' te' QE') ->
  (~ np -> forall c' e, c <= c' -> QE c' e -> cspec (h e) (te e ++ F) te' (QE' c')) ->
  wspec c (xbind m k h) H th' QA' te' QE'.
Proof using Type.
  intros Hp Hm Hk Hh s L Hc Ho. destruct (Hm s (F ++ L) Hc) as (o & s' & Eo & Ec & HR).
  { eapply xown_perm; [|exact Ho]. rewrite Hp. perm. }
  unfold xbind, dbind. rewrite Eo. destruct o as [a|e].
  - destruct HR as (HQ & Ho').
    destruct (Hk (x_calls s') a Ec HQ s' L eq_refl) as (o & s2 & E2 & Ec2 & HR2).
    { eapply xown_perm; [|exact Ho']. perm. }
    exists o, s2. split; [exact E2|]. split; [lia|]. exact HR2.
  - destruct HR as (Hn & HQ & x & Ho').
    destruct (Hh Hn (x_calls s') e Ec HQ s' (x ++ L)) as (e2 & s2 & E2 & Ec2 & HQ2 & y & Ho2 & _).
    { eapply xown_perm; [|exact Ho']. perm. }
    rewrite E2. exists (inr e2), s2. unfold dret. rewrite Ec2. split; [reflexivity|]. split; [lia|]. split; [exact Hn|split; [exact HQ2|]].
    exists (y ++ x). eapply xown_perm; [|exact Ho2]. perm.
Qed.

Lemma wspec_ask {C E'} c (k : nat -> X C E') (h : unit -> D E') H th' QA' te' (QE' : nat -> E' -> Prop) :
  wspec (S c) (k c) H th' QA' te' QE' -> (~ np -> cspec (h tt) H te' (QE' (S c))) ->
  wspec c (xbind (ask crash) k h) H th' QA' te' QE'.
Proof using Hnc.
  intros Hk Hh s L Hc Ho. unfold xbind, dbind, ask.
  set (s1 := {| x_next := x_next s; x_made := x_made s; x_gone := x_gone s; x_calls := S (x_calls s) |}).
  assert (Ho1 : xown gv s1 (H ++ L)) by (eapply xown_calls; [..|exact Ho]; reflexivity).
  destruct (crash (x_calls s)) eqn:Ec.
  - assert (Hn : ~ np) by (intros Hnp; rewrite (Hnc Hnp) in Ec; discriminate).
    destruct (Hh Hn s1 L Ho1) as (e & s2 & E2 & Ec2 & HQ & x & Hx & _). rewrite E2. exists (inr e), s2. unfold dret.
    cbn [x_calls s1] in Ec2. rewrite Ec2, Hc. split; [reflexivity|]. split; [lia|]. split; [exact Hn|split; [exact HQ|now exists x]].
  - rewrite Hc. destruct (Hk s1 L) as (o & s2 & E2 & Ec2 & HR); [cbn; now rewrite Hc|exact Ho1|]. rewrite E2. exists o, s2.
    split; [reflexivity|]. split; [lia|]. exact HR.
Qed.

Lemma wspec_lift {A C E'} c (r : res A) (k : A -> X C E') (h : unit -> D E') H th' QA' te' (QE' : nat -> E' -> Prop) :
  r <> UB -> r <> OutOfFuel -> (np -> r <> Panic) ->
  (forall a, r = Ok a -> wspec c (k a) H th' QA' te' QE') -> (~ np -> cspec (h tt) H te' (QE' c)) ->
  wspec c (xbind (dlift r) k h) H th' QA' te' QE'.
Proof using Type.
  intros H1 H2 H3 Hk Hh s L Hc Ho. unfold xbind, dbind, dlift. destruct r as [a| | |]; try congruence.
  - unfold dret at 1. exact (Hk a eq_refl s L Hc Ho).
  - assert (Hn : ~ np) by (intros Hnp; now elim (H3 Hnp)).
    unfold dret at 1. destruct (Hh Hn s L Ho) as (e & s2 & E2 & Ec2 & HQ & x & Hx & _). rewrite E2. exists (inr e), s2. unfold dret.
    rewrite Hc in Ec2. rewrite Ec2. split; [reflexivity|]. split; [lia|]. split; [exact Hn|split; [exact HQ|now exists x]].
Qed.

(** A lifted step that always succeeds. *)
Lemma wspec_lift_ok {A C E'} c (r : res A) a (k : A -> X C E') (h : unit -> D E') H th' QA' te' (QE' : nat -> E' -> Prop) :
  r = Ok a -> wspec c (k a) H th' QA' te' QE' -> wspec c (xbind (dlift r) k h) H th' QA' te' QE'.
Proof using Type. intros -> Hk. exact Hk. Qed.

Lemma wspec_push {T C E'} c cap (l : list T) x (k : list T -> X C E') (h : T -> D E') H th' QA' te' (QE' : nat -> E' -> Prop) :
  length l < cap -> wspec c (k (l ++ [x])) H th' QA' te' QE' ->
  wspec c (xbind (xtry_push cap l x) k h) H th' QA' te' QE'.
Proof using Type.
  intros Hl Hk s L Hc Ho. destruct (Hk s L Hc Ho) as (o & s' & Eq' & HR). exists o, s'. split; [|exact HR].
  unfold xbind, dbind, xtry_push. destruct (Nat.eqb_spec (length l) cap); [lia|]. destruct (Nat.ltb_spec cap (length l)); [lia|]. exact Eq'.
Qed.

Lemma wspec_try_push {T C E} c cap (l : list T) x (k : list T + T -> X C E) H th QA te (QE : nat -> E -> Prop) :
  length l <= cap -> wspec c (k (try_push cap l x)) H th QA te QE -> wspec c (dbind (xtry_push cap l x) k) H th QA te QE.
Proof using Type.
  intros Hl Hk s L Hc Ho. destruct (Hk s L Hc Ho) as (o & s' & E' & HR). exists o, s'. split; [|exact HR].
  unfold dbind, xtry_push. unfold try_push in E'. destruct (_ =? _) eqn:Ee; [exact E'|].
  apply Nat.eqb_neq in Ee. destruct (Nat.ltb_spec cap (length l)); [lia|exact E'].
Qed.

Lemma keep_part {A} (l1 l2 : list A) : part_of l1 l2 -> keep False l1 l2.
Proof using Type. apply keep_not. tauto. Qed.
End WSpec.

(** ** The splitter *)
Section WSplitProof.
Context {B K V N T : Type} (crash : nat -> bool) (gv : list (xthing K V)) (np : Prop)
  (Hnc : np -> forall i, crash i = false) (O : nat -> nat -> answers B K V N) (U : numops N) (cfg : config).
Context (bnd : nat -> nat -> T -> B) (drop_elem : T -> D K V unit) (th : T -> list (xthing K V)).
Notation wspec := (wspec gv np).
Notation cspec := (cspec gv False).
Notation cap := (max_children cfg).
Notation minc := (min_children cfg).
Context (Hdrop : forall x, cspec (drop_elem x) (th x) nothing any).

Definition wleft (values : list T) (_ : nat) (values' : list T) : Prop := part_of values' values /\ length values' <= cap.
(** What a split has to deliver: a partition with right sizes. *)
Definition wgroups (all : list T) (g1 g2 : list T) : Prop :=
  Permutation all (g1 ++ g2) /\ 1 <= length g1 /\ 1 <= length g2 /\ length g1 + length g2 = S cap
  /\ Nat.min minc (cap - minc) <= length g1 /\ Nat.min minc (cap - minc) <= length g2.

Lemma wsplit_loop_spec fuel c all values g1 id2 group2 b1 b2 :
  length values <= fuel + g1 -> 1 <= g1 <= length values -> 1 <= length group2 ->
  length values + length group2 = S cap ->
  (minc + 1 <= length values \/ Nat.min minc (cap - minc) <= g1) ->
  Nat.min minc (cap - minc) <= length group2 + (length values - g1) ->
  Permutation all (values ++ group2) ->
  wspec c (wsplit_loop crash O U cfg bnd drop_elem fuel values g1 id2 group2 b1 b2)
    (flat_map th values ++ XBuf id2 :: flat_map th group2)
    (fun r => flat_map th (snd (fst r)) ++ XBuf id2 :: flat_map th (snd r))
    (fun _ r => wgroups all (snd (fst r)) (snd r))
    (flat_map th) (wleft all).
Proof.
  revert c values g1 group2 b1 b2; induction fuel as [|fuel IH]; intros c values g1 group2 b1 b2 Hf Hg Hg2 Hsum Hm1 Hm2 Hp; cbn [wsplit_loop].
  { destruct (Nat.ltb_spec g1 (length values)); [lia|]. apply wspec_ret; [|reflexivity]. cbn [fst snd]. unfold wgroups. splits; auto; lia. }
  assert (Hpart : part_of values all).
  { eapply part_perm_r; [exact Hp|]. apply part_app_r, part_refl. }
  assert (Hab : forall c, cspec (let$ _ := drop_vec drop_elem id2 group2 in dret values)
      (flat_map th values ++ XBuf id2 :: flat_map th group2) (flat_map th) (wleft all c)).
  { intros c0. apply (abort_spec gv False drop_elem th Hdrop); [reflexivity|]. split; [exact Hpart|lia]. }
  destruct (Nat.ltb_spec g1 (length values)) as [Hlt|Hge].
  2:{ apply wspec_ret; [|reflexivity]. cbn [fst snd]. unfold wgroups. splits; auto; lia. }
  assert (Hrem : length (skipn g1 values) = length values - g1) by apply skipn_length.
  assert (Hne : skipn g1 values <> []) by (intros E; rewrite E in Hrem; cbn in Hrem; lia).
  apply (wspec_ask crash gv np Hnc); [|intros _; apply Hab].
  destruct (wbest_candidate_spec O U bnd c (skipn g1 values) b1 Hne) as (c1 & v1 & E1 & Hc1).
  eapply wspec_lift_ok; [rewrite E1; reflexivity|].
  apply (wspec_ask crash gv np Hnc); [|intros _; apply Hab].
  destruct (wbest_candidate_spec O U bnd (S c) (skipn g1 values) b2 Hne) as (c2 & v2 & E2 & Hc2).
  eapply wspec_lift_ok; [rewrite E2; reflexivity|].
  cbv beta iota zeta. set (cond := if nu_lt U v1 v2 then minc <? length group2 + length (skipn g1 values) else g1 + length (skipn g1 values) - 1 =? minc).
  assert (Hcond1 : cond = true -> Nat.min minc (cap - minc) <= length group2 + (length values - g1) - 1).
  { unfold cond. rewrite Hrem. destruct (nu_lt U v1 v2); intros HH.
    - apply Nat.ltb_lt in HH. lia.
    - apply Nat.eqb_eq in HH. lia. }
  assert (Hcond2 : cond = false -> minc + 2 <= length values \/ Nat.min minc (cap - minc) <= g1).
  { unfold cond. rewrite Hrem. destruct (nu_lt U v1 v2); intros HH.
    - apply Nat.ltb_ge in HH. lia.
    - apply Nat.eqb_neq in HH. lia. }
  destruct cond.
  - destruct (nth_error_exists c1 (skipn g1 values) Hc1) as [x Hx].
    eapply wspec_lift_ok; [rewrite Hx; reflexivity|]. apply (wspec_ask crash gv np Hnc); [|intros _; apply Hab].
    destruct (slice_swap_spec (g1 + c1) g1 values) as (vs & Es & Hpv & Hlv & _); [lia|lia|].
    eapply wspec_lift_ok; [exact Es|].
    eapply wspec_perm; [rewrite Hpv; reflexivity|]. apply IH; try lia. now rewrite Hp, Hpv.
  - destruct (nth_error_exists c2 (skipn g1 values) Hc2) as [x Hx].
    eapply wspec_lift_ok; [rewrite Hx; reflexivity|]. apply (wspec_ask crash gv np Hnc); [|intros _; apply Hab].
    destruct (swap_remove_spec (g1 + c2) values) as (y & vs & Es & Hy & Hpv & _); [lia|].
    eapply wspec_lift_ok; [exact Es|]. cbv beta iota.
    assert (Hlen : length values = S (length vs)) by (apply Permutation_length in Hpv; exact Hpv).
    apply wspec_push; [lia|].
    eapply wspec_perm with (H' := flat_map th vs ++ XBuf id2 :: flat_map th (group2 ++ [y])).
    { rewrite (Permutation_flat_map_ th _ _ Hpv), flat_map_app. cbn [flat_map]. perm. }
    apply IH; rewrite ?app_length; cbn [length]; try lia. rewrite Hp, Hpv. perm.
Qed.

Lemma wsplit_spec c values ov : length values = cap -> (np -> cap <> 0) ->
  wspec c (wsplit crash O U cfg bnd drop_elem values ov)
    (flat_map th values ++ th ov)
    (fun r => let '(_, _, g1, (id2, g2)) := r in flat_map th g1 ++ XBuf id2 :: flat_map th g2)
    (fun _ r => let '(_, _, g1, (_, g2)) := r in wgroups (ov :: values) g1 g2)
    (flat_map th) (wleft (ov :: values)).
Proof.
  intros Hcap Hnp. unfold wsplit. destruct (Nat.ltb_spec (length values) 1) as [Hlt|Hge].
  { apply wspec_unwind1; [intros H; specialize (Hnp H); lia|].
    eapply cspec_bind with (H1 := th ov) (F := flat_map th values); [perm|apply Hdrop|].
    intros [] _. apply cspec_ret; [apply keep_refl|]. split; [|lia].
    eapply part_perm_r; [apply (Permutation_app_comm [ov] values)|]. apply part_app_r, part_refl. }
  eapply wspec_dbind with (H1 := []); [perm|apply dspec_new_buf|]. intros id2 _. cbn [app].
  assert (Hab0 : forall c, cspec (let$ _ := drop_elem ov in let$ _ := drop_vec drop_elem id2 [] in dret values)
      (XBuf id2 :: flat_map th values ++ th ov) (flat_map th) (wleft (ov :: values) c)).
  { intros c0. eapply cspec_bind with (H1 := th ov) (F := flat_map th values ++ [XBuf id2]); [perm|apply Hdrop|].
    intros [] _. apply (abort_spec gv False drop_elem th Hdrop); [perm|]. split; [|lia].
    eapply part_perm_r; [apply (Permutation_app_comm [ov] values)|]. apply part_app_r, part_refl. }
  apply (wspec_ask crash gv np Hnc); [|intros _; apply Hab0].
  destruct (wseed_split_groups_spec O U bnd c values ov) as (values' & seed & Es & Hp & Hl).
  { intros ->. cbn in *. lia. }
  eapply wspec_lift_ok; [exact Es|]. cbv beta iota.
  assert (Hp2 : Permutation (ov :: values) (values' ++ [seed])) by (rewrite Hp; perm).
  apply wspec_push; [cbn; lia|]. cbn [app].
  eapply wspec_perm with (H' := flat_map th values' ++ XBuf id2 :: flat_map th [seed]).
  { apply (Permutation_flat_map_ th) in Hp2. rewrite flat_map_app in Hp2. cbn [flat_map] in Hp2 |- *. rewrite app_nil_r in *.
    transitivity (XBuf id2 :: th ov ++ flat_map th values); [perm|]. rewrite Hp2. perm. }
  assert (Hab : forall c, cspec (let$ _ := drop_vec drop_elem id2 [seed] in dret values')
      (flat_map th values' ++ XBuf id2 :: flat_map th [seed]) (flat_map th) (wleft (ov :: values) c)).
  { intros c0. apply (abort_spec gv False drop_elem th Hdrop); [reflexivity|]. split; [|lia].
    eapply part_perm_r; [exact Hp2|]. apply part_app_r, part_refl. }
  destruct values' as [|v0 vs]; [cbn in *; lia|]. cbn [nth_error].
  eapply wspec_lift_ok; [reflexivity|]. eapply wspec_lift_ok; [reflexivity|]. apply (wspec_ask crash gv np Hnc); [|intros _; apply Hab].
  eapply wspec_bind with (F := []).
  { rewrite app_nil_r. reflexivity. }
  { apply (wsplit_loop_spec (length (v0 :: vs)) (S (S c)) (ov :: values)); cbn [length] in *; try lia. exact Hp2. }
  - intros c' [[[b1 b2] g1] g2] _ Hg. cbn [fst snd] in *. apply wspec_ret; [exact Hg|]. now rewrite app_nil_r.
  - intros _ c' vs' _ Hv. apply cspec_ret; [rewrite app_nil_r; apply keep_refl|exact Hv].
Qed.
End WSplitProof.
