(** Unwinding: every operation is free of undefined behaviour and accounts for everything, whatever user code panics. *)
From Verif Require Export CrashSpec MemProof.

(** ** Parts of lists *)
Lemma part_refl {A} (l : list A) : part_of l l.
Proof. exists []. now rewrite app_nil_r. Qed.
Lemma part_perm {A} (l1 l2 : list A) : Permutation l1 l2 -> part_of l1 l2.
Proof. intros H. exists []. rewrite app_nil_r. now symmetry. Qed.
Lemma part_trans {A} (l1 l2 l3 : list A) : part_of l1 l2 -> part_of l2 l3 -> part_of l1 l3.
Proof. intros [r H] [r' H']. exists (r ++ r'). rewrite H', H. perm. Qed.
Lemma part_app {A} (l1 l2 m1 m2 : list A) : part_of l1 l2 -> part_of m1 m2 -> part_of (l1 ++ m1) (l2 ++ m2).
Proof. intros [r H] [r' H']. exists (r ++ r'). rewrite H, H'. perm. Qed.
Lemma part_app_r {A} (l1 l2 m : list A) : part_of l1 l2 -> part_of l1 (l2 ++ m).
Proof. intros [r H]. exists (r ++ m). rewrite H. perm. Qed.
Lemma part_flat_map {A C} (f : A -> list C) l1 l2 : part_of l1 l2 -> part_of (flat_map f l1) (flat_map f l2).
Proof. intros [r H]. exists (flat_map f r). rewrite <- flat_map_app. now apply Permutation_flat_map_. Qed.
Lemma part_Forall {A} (R : A -> Prop) l1 l2 : part_of l1 l2 -> Forall R l2 -> Forall R l1.
Proof. intros [r H] HF. apply (Forall_perm _ _ _ H) in HF. now apply Forall_app in HF. Qed.
Lemma part_perm_l {A} (l1 l1' l2 : list A) : Permutation l1 l1' -> part_of l1' l2 -> part_of l1 l2.
Proof. intros H [r H']. exists r. now rewrite H', H. Qed.
Lemma part_perm_r {A} (l1 l2 l2' : list A) : Permutation l2 l2' -> part_of l1 l2' -> part_of l1 l2.
Proof. intros H [r H']. exists r. now rewrite H, H'. Qed.
(** All of [l2], if [lk] holds; otherwise a part of it. *)
Definition keep (lk : Prop) {A} (l1 l2 : list A) : Prop := exists rest, Permutation l2 (l1 ++ rest) /\ (lk -> rest = []).
Lemma keep_refl lk {A} (l : list A) : keep lk l l.
Proof. exists []. now rewrite app_nil_r. Qed.
Lemma keep_perm lk {A} (l1 l2 : list A) : Permutation l1 l2 -> keep lk l1 l2.
Proof. intros H. exists []. rewrite app_nil_r. now split; [symmetry|]. Qed.
Lemma keep_not (lk : Prop) {A} (l1 l2 : list A) : ~ lk -> part_of l1 l2 -> keep lk l1 l2.
Proof. intros Hn [r H]. exists r. split; [exact H|tauto]. Qed.
Lemma keep_app_r (lk : Prop) {A} (l m : list A) : (lk -> m = []) -> keep lk l (l ++ m).
Proof. intros Hm. exists m. now split. Qed.
Lemma part_cut {A} (l1 l2 m : list A) : part_of (l1 ++ m) l2 -> part_of l1 l2.
Proof. intros [r H]. exists (m ++ r). rewrite H. perm. Qed.

Lemma Permutation_filter_ {A} (f : A -> bool) l l' : Permutation l l' -> Permutation (filter f l) (filter f l').
Proof.
  induction 1 as [|x l l' H IH|x y l|l1 l2 l3 H1 IH1 H2 IH2]; cbn.
  - constructor.
  - destruct (f x); [now constructor|exact IH].
  - destruct (f x), (f y); try apply Permutation_refl. constructor.
  - now transitivity (filter f l2).
Qed.

Section Own.
Context {K V : Type}.
Notation xthing := (xthing K V).
Notation xmem := (xmem K V).
Notation D := (D K V).
Notation X := (X K V).
(** [lk]: nothing can leak. *)
Context (crash : nat -> bool) (bdrop : bool) (gv : list xthing) (lk : Prop).

Definition obj_id (x : xthing) : nat := match x with XBuf i | XBnd i => i | _ => 0 end.

(** Everything made and given is gone or in [H]; objects have distinct numbers. *)
Record xown (s : xmem) (H : list xthing) : Prop := {
  xo_gv : Forall (fun x => is_obj x = false) gv;
  xo_nodup : NoDup (objs (x_made s));
  xo_fresh : forall x, In x (objs (x_made s)) -> obj_id x < x_next s;
  xo_all : Permutation (x_made s ++ gv) (x_gone s ++ H)
}.

Lemma xown_perm s H H' : Permutation H H' -> xown s H -> xown s H'.
Proof. intros Hp [H1 H2 H3 H4]. split; auto. now rewrite <- Hp. Qed.

Lemma xown_calls s H s' : x_next s' = x_next s -> x_made s' = x_made s -> x_gone s' = x_gone s -> xown s H -> xown s' H.
Proof. intros E1 E2 E3 [H1 H2 H3 H4]. split; rewrite ?E1, ?E2, ?E3; auto. Qed.

Lemma objs_gv : Forall (fun x => is_obj x = false) gv -> objs gv = [].
Proof. induction 1 as [|x l Hx _ IH]; cbn; [reflexivity|]. rewrite Hx. exact IH. Qed.

Lemma objs_app (l l' : list xthing) : objs (l ++ l') = objs l ++ objs l'.
Proof. apply filter_app. Qed.

Lemma xown_objs s H : xown s H -> Permutation (objs (x_made s)) (objs (x_gone s) ++ objs H).
Proof.
  intros [H1 H2 H3 H4]. apply (Permutation_filter_ is_obj) in H4.
  fold (objs (x_made s ++ gv)) (objs (x_gone s ++ H)) in H4. rewrite !objs_app, objs_gv, app_nil_r in H4; auto.
Qed.

Lemma same_obj_spec (x y : xthing) : is_obj x = true -> (same_obj x y = true <-> x = y).
Proof.
  destruct x as [i|i|k|v]; try discriminate; intros _; destruct y as [j|j|k|v]; cbn;
    rewrite ?Nat.eqb_eq; split; congruence.
Qed.

Lemma existsb_obj (x : xthing) l : is_obj x = true -> (existsb (same_obj x) l = true <-> In x l).
Proof.
  intros Hx. rewrite existsb_exists. split.
  - intros (y & Hy & E). apply (same_obj_spec x y Hx) in E. now subst y.
  - intros Hin. exists x. split; [exact Hin|]. now apply (same_obj_spec x x Hx).
Qed.

Lemma in_objs (x : xthing) l : In x (objs l) <-> In x l /\ is_obj x = true.
Proof. apply filter_In. Qed.

Lemma xown_live s H x : xown s H -> In x H -> is_obj x = true -> xlive s x = true.
Proof.
  intros Ho Hin Hx. assert (Hp := xown_objs s H Ho). unfold xlive. apply andb_true_iff. split.
  - apply existsb_obj; [exact Hx|]. assert (Hi : In x (objs (x_made s))).
    { rewrite Hp. apply in_or_app. right. now apply in_objs. }
    now apply in_objs in Hi.
  - apply negb_true_iff. destruct (existsb (same_obj x) (x_gone s)) eqn:E; [|reflexivity]. exfalso.
    apply (existsb_obj x _ Hx) in E.
    assert (Hnd : NoDup (objs (x_gone s) ++ objs H)) by (eapply Permutation_NoDup; [exact Hp|apply (xo_nodup s H Ho)]).
    assert (Hg : In x (objs (x_gone s))) by (now apply in_objs).
    assert (Hh : In x (objs H)) by (now apply in_objs).
    apply in_split in Hg as (l1 & l2 & Eg). rewrite Eg in Hnd. rewrite <- app_assoc in Hnd.
    apply NoDup_remove_2 in Hnd. apply Hnd. rewrite !in_app_iff. tauto.
Qed.

(** ** Specifications; [L] is the frame *)

(** A step that does not panic. *)
Definition dspec {A} (m : D A) (H : list xthing) (th : A -> list xthing) (Q : A -> Prop) : Prop :=
  forall s L, xown s (H ++ L) ->
  exists a s', m s = Some (a, s') /\ x_calls s' = x_calls s /\ Q a /\ xown s' (th a ++ L).

(** A step that does not panic and may leak. *)
Definition cspec {A} (m : D A) (H : list xthing) (th : A -> list xthing) (Q : A -> Prop) : Prop :=
  forall s L, xown s (H ++ L) ->
  exists a s', m s = Some (a, s') /\ x_calls s' = x_calls s /\ Q a /\ exists leak, xown s' (th a ++ leak ++ L) /\ (lk -> leak = []).

(** A step that returns exactly what the plain model says, or unwinds because user code panicked or the plain model says so;
    only unwinding leaks. *)
Definition spec {A E A0} (m : X A E) (r : res A0) (fg : A -> A0) (H : list xthing)
  (th : A -> list xthing) (QA : A -> Prop) (te : E -> list xthing) (QE : E -> Prop) : Prop :=
  forall s L, xown s (H ++ L) ->
  exists o s', m s = Some (o, s') /\ x_calls s <= x_calls s' /\
  match o with
  | inl a => r = Ok (fg a) /\ QA a /\ xown s' (th a ++ L)
  | inr e => (crashed crash (x_calls s) (x_calls s') \/ r = Panic) /\ QE e /\ exists leak, xown s' (te e ++ leak ++ L) /\ (lk -> leak = [])
  end.

Definition nothing {A} : A -> list xthing := fun _ => [].
Definition any {A} : A -> Prop := fun _ => True.

Lemma dspec_cspec {A} (m : D A) H th Q : dspec m H th Q -> cspec m H th Q.
Proof. intros Hm s L Ho. destruct (Hm s L Ho) as (a & s' & E & Ec & HQ & Ho'). exists a, s'. splits; auto. exists []. now split. Qed.

Lemma dspec_perm {A} (m : D A) H H' th Q : Permutation H H' -> dspec m H' th Q -> dspec m H th Q.
Proof. intros Hp Hm s L Ho. apply Hm. eapply xown_perm; [|exact Ho]. now rewrite Hp. Qed.
Lemma cspec_perm {A} (m : D A) H H' th Q : Permutation H H' -> cspec m H' th Q -> cspec m H th Q.
Proof. intros Hp Hm s L Ho. apply Hm. eapply xown_perm; [|exact Ho]. now rewrite Hp. Qed.
Lemma spec_perm {A E A0} (m : X A E) (r : res A0) fg H H' th QA te QE :
  Permutation H H' -> spec m r fg H' th QA te QE -> spec m r fg H th QA te QE.
Proof. intros Hp Hm s L Ho. apply Hm. eapply xown_perm; [|exact Ho]. now rewrite Hp. Qed.

Lemma dspec_mono {A} (m : D A) H th (Q Q' : A -> Prop) : (forall a, Q a -> Q' a) -> dspec m H th Q -> dspec m H th Q'.
Proof. intros HQ Hm s L Ho. destruct (Hm s L Ho) as (a & s' & E & Ec & Ha & Ho'). exists a, s'. auto. Qed.
Lemma cspec_mono {A} (m : D A) H th (Q Q' : A -> Prop) : (forall a, Q a -> Q' a) -> cspec m H th Q -> cspec m H th Q'.
Proof. intros HQ Hm s L Ho. destruct (Hm s L Ho) as (a & s' & E & Ec & Ha & Ho'). exists a, s'. auto. Qed.
Lemma spec_mono {A E A0} (m : X A E) (r : res A0) fg H th (QA QA' : A -> Prop) te (QE QE' : E -> Prop) :
  (forall a, QA a -> QA' a) -> (forall e, QE e -> QE' e) ->
  spec m r fg H th QA te QE -> spec m r fg H th QA' te QE'.
Proof.
  intros HQ HE Hm s L Ho. destruct (Hm s L Ho) as ([a|e] & s' & E' & Ec & HR); [exists (inl a), s'|exists (inr e), s'];
    intuition eauto.
Qed.

Lemma dspec_ret {A} (a : A) H (th : A -> list xthing) (Q : A -> Prop) : Permutation H (th a) -> Q a -> dspec (dret a) H th Q.
Proof. intros Hp HQ s L Ho. exists a, s. splits; auto. eapply xown_perm; [|exact Ho]. now rewrite Hp. Qed.

Lemma cspec_ret {A} (a : A) H (th : A -> list xthing) (Q : A -> Prop) : keep lk (th a) H -> Q a -> cspec (dret a) H th Q.
Proof.
  intros (x & Hp & Hx) HQ s L Ho. exists a, s. splits; auto. exists x. split; [|exact Hx]. eapply xown_perm; [|exact Ho]. rewrite Hp. perm.
Qed.

Lemma dspec_bind {A C} (m : D A) (k : A -> D C) H H1 F (th : A -> list xthing) Q th' Q' :
  Permutation H (H1 ++ F) -> dspec m H1 th Q -> (forall a, Q a -> dspec (k a) (th a ++ F) th' Q') ->
  dspec (dbind m k) H th' Q'.
Proof.
  intros Hp Hm Hk s L Ho. destruct (Hm s (F ++ L)) as (a & s' & E & Ec & Ha & Ho').
  { eapply xown_perm; [|exact Ho]. rewrite Hp. perm. }
  destruct (Hk a Ha s' L) as (c & s2 & E2 & Ec2 & Hc & Ho2).
  { eapply xown_perm; [|exact Ho']. perm. }
  exists c, s2. unfold dbind. rewrite E. splits; auto. congruence.
Qed.

Lemma cspec_bind {A C} (m : D A) (k : A -> D C) H H1 F (th : A -> list xthing) Q th' Q' :
  Permutation H (H1 ++ F) -> cspec m H1 th Q -> (forall a, Q a -> cspec (k a) (th a ++ F) th' Q') ->
  cspec (dbind m k) H th' Q'.
Proof.
  intros Hp Hm Hk s L Ho. destruct (Hm s (F ++ L)) as (a & s' & E & Ec & Ha & x & Ho' & Hx).
  { eapply xown_perm; [|exact Ho]. rewrite Hp. perm. }
  destruct (Hk a Ha s' (x ++ L)) as (c & s2 & E2 & Ec2 & Hc & y & Ho2 & Hy).
  { eapply xown_perm; [|exact Ho']. perm. }
  exists c, s2. unfold dbind. rewrite E. splits; auto; [congruence|]. exists (y ++ x). split; [|intros Hk'; now rewrite (Hx Hk'), (Hy Hk')]. eapply xown_perm; [|exact Ho2]. perm.
Qed.

Lemma crashed_l a b c : a <= b -> b <= c -> crashed crash a b -> crashed crash a c.
Proof. intros H1 H2 (i & Hi & E). exists i. split; [lia|exact E]. Qed.
Lemma crashed_r a b c : a <= b -> b <= c -> crashed crash b c -> crashed crash a c.
Proof. intros H1 H2 (i & Hi & E). exists i. split; [lia|exact E]. Qed.

Lemma spec_ret {A E A0} (a : A) (r : res A0) fg H th (QA : A -> Prop) te (QE : E -> Prop) :
  r = Ok (fg a) -> QA a -> Permutation H (th a) -> spec (dret (inl a)) r fg H th QA te QE.
Proof.
  intros Hr HQ Hp s L Ho. exists (inl a), s. splits; auto. eapply xown_perm; [|exact Ho]. now rewrite Hp.
Qed.

Lemma spec_dbind {A C E A0} (m : D A) (k : A -> X C E) (r : res A0) fg H H1 F (th : A -> list xthing) Q th' QA te QE :
  Permutation H (H1 ++ F) -> dspec m H1 th Q -> (forall a, Q a -> spec (k a) r fg (th a ++ F) th' QA te QE) ->
  spec (dbind m k) r fg H th' QA te QE.
Proof.
  intros Hp Hm Hk s L Ho. destruct (Hm s (F ++ L)) as (a & s' & E' & Ec & Ha & Ho').
  { eapply xown_perm; [|exact Ho]. rewrite Hp. perm. }
  destruct (Hk a Ha s' L) as (o & s2 & E2 & Ec2 & HR).
  { eapply xown_perm; [|exact Ho']. perm. }
  exists o, s2. unfold dbind. rewrite E', E2. rewrite Ec in Ec2, HR. splits; auto.
Qed.

(** A step that unwinds for sure. *)
Lemma spec_unwind {A E A0} (m : D E) (r : res A0) (fg : A -> A0) H th QA te QE :
  r = Panic -> cspec m H te QE -> spec (dbind m (fun e => dret (inr e))) r fg H th QA te QE.
Proof.
  intros Hr Hm s L Ho. destruct (Hm s L Ho) as (e & s' & E' & Ec & HQ & Ho'). exists (inr e), s'. unfold dbind. rewrite E'.
  unfold dret. splits; auto. lia.
Qed.

Lemma spec_unwind1 {A E A0 C} (m : D C) (n : E) (r : res A0) (fg : A -> A0) H th QA te QE :
  r = Panic -> cspec (dbind m (fun _ => dret n)) H te QE -> spec (dbind m (fun _ => dret (inr n))) r fg H th QA te QE.
Proof.
  intros Hr Hm s L Ho. destruct (Hm s L Ho) as (e & s' & E' & Ec & HQ & Ho'). unfold dbind in *.
  destruct (m s) as [[c s1]|]; [|discriminate]. unfold dret in *. injection E' as -> ->. exists (inr e), s'. splits; auto. lia.
Qed.

Lemma spec_unwind0 {A E A0} (e : E) (r : res A0) (fg : A -> A0) H th QA te (QE : E -> Prop) :
  r = Panic -> keep lk (te e) H -> QE e -> spec (dret (inr e)) r fg H th QA te QE.
Proof.
  intros Hr (x & Hp & Hx) HQ s L Ho. exists (inr e), s. splits; auto. exists x. split; [|exact Hx]. eapply xown_perm; [|exact Ho]. rewrite Hp. perm.
Qed.

Lemma spec_bind {A E C E' A0 C0} (m : X A E) (k : A -> X C E') (h : E -> D E') (r : res A0) (k0 : A0 -> res C0)
  fg fg' H H1 F th QA te QE th' QA' te' QE' :
  Permutation H (H1 ++ F) -> spec m r fg H1 th QA te QE ->
  (forall a, QA a -> r = Ok (fg a) -> spec (k a) (k0 (fg a)) fg' (th a ++ F) th' QA' te' QE') ->
  (forall e, QE e -> cspec (h e) (te e ++ F) te' QE') ->
  spec (xbind m k h) (bind r k0) fg' H th' QA' te' QE'.
Proof.
  intros Hp Hm Hk Hh s L Ho. destruct (Hm s (F ++ L)) as (o & s' & Eo & Ec & HR).
  { eapply xown_perm; [|exact Ho]. rewrite Hp. perm. }
  unfold xbind, dbind. rewrite Eo. destruct o as [a|e].
  - destruct HR as (-> & HQ & Ho'). cbn [bind].
    destruct (Hk a HQ eq_refl s' L) as (o & s2 & E2 & Ec2 & HR2).
    { eapply xown_perm; [|exact Ho']. perm. }
    exists o, s2. split; [exact E2|]. split; [lia|]. destruct o as [c|e].
    + exact HR2.
    + destruct HR2 as ([Hc|Hr] & Hrest); (split; [|exact Hrest]); [left|right; exact Hr].
      now apply (crashed_r _ (x_calls s')).
  - destruct HR as (Hc & HQ & x & Ho' & Hx).
    destruct (Hh e HQ s' (x ++ L)) as (e2 & s2 & E2 & Ec2 & HQ2 & y & Ho2 & Hy).
    { eapply xown_perm; [|exact Ho']. perm. }
    rewrite E2. exists (inr e2), s2. unfold dret. split; [reflexivity|]. split; [lia|]. split; [|split; [exact HQ2|]].
    + destruct Hc as [Hc| ->]; [left; now rewrite Ec2|right; reflexivity].
    + exists (y ++ x). split; [|intros Hk'; now rewrite (Hx Hk'), (Hy Hk')]. eapply xown_perm; [|exact Ho2]. perm.
Qed.

(** When what follows is not reflected in the plain model. *)
Lemma spec_bind_ret {A E C E' A0} (m : X A E) (k : A -> X C E') (h : E -> D E') (r : res A0)
  fg fg' H H1 F th QA te QE th' QA' te' QE' :
  Permutation H (H1 ++ F) -> spec m r fg H1 th QA te QE ->
  (forall a, QA a -> r = Ok (fg a) -> spec (k a) r fg' (th a ++ F) th' QA' te' QE') ->
  (forall e, QE e -> cspec (h e) (te e ++ F) te' QE') ->
  spec (xbind m k h) r fg' H th' QA' te' QE'.
Proof.
  intros Hp Hm Hk Hh. replace r with (bind r (fun a => Ok a)) by (now destruct r).
  eapply spec_bind; eauto. intros a HQ Hr. specialize (Hk a HQ Hr). now rewrite Hr in Hk.
Qed.

Lemma spec_user {C E' A0} (k : unit -> X C E') (h : unit -> D E') (r : res A0) fg' H th' QA' te' QE' :
  spec (k tt) r fg' H th' QA' te' QE' -> cspec (h tt) H te' QE' ->
  spec (xbind (user crash) k h) r fg' H th' QA' te' QE'.
Proof.
  intros Hk Hh s L Ho. unfold xbind, dbind, user.
  set (s1 := {| x_next := x_next s; x_made := x_made s; x_gone := x_gone s; x_calls := S (x_calls s) |}).
  assert (Ho1 : xown s1 (H ++ L)) by (eapply xown_calls; [..|exact Ho]; reflexivity).
  destruct (crash (x_calls s)) eqn:Ec.
  - destruct (Hh s1 L Ho1) as (e & s2 & E2 & Ec2 & HQ & Hx). rewrite E2. exists (inr e), s2. unfold dret.
    cbn [x_calls s1] in Ec2. split; [reflexivity|]. split; [lia|]. split; [left|split; assumption].
    exists (x_calls s). split; [lia|exact Ec].
  - destruct (Hk s1 L Ho1) as (o & s2 & E2 & Ec2 & HR). rewrite E2. exists o, s2. cbn [x_calls s1] in Ec2, HR.
    split; [reflexivity|]. split; [lia|]. destruct o as [a|e]; [exact HR|].
    destruct HR as ([Hc|Hr] & Hrest); (split; [|exact Hrest]); [left|right; exact Hr].
    apply (crashed_r _ (S (x_calls s))); [lia|lia|exact Hc].
Qed.

Lemma spec_lift {A C E' A0 C0} (f : A -> A0) (r : res A) (k : A -> X C E') (h : unit -> D E') (r0 : res A0) (k0 : A0 -> res C0) fg' H th' QA' te' QE' :
  r0 = res_map f r -> r <> UB -> r <> OutOfFuel ->
  (forall a, r = Ok a -> spec (k a) (k0 (f a)) fg' H th' QA' te' QE') ->
  cspec (h tt) H te' QE' ->
  spec (xbind (dlift r) k h) (bind r0 k0) fg' H th' QA' te' QE'.
Proof.
  intros -> H1 H2 Hk Hh s L Ho. unfold xbind, dbind, dlift. destruct r as [a| | |]; try congruence; cbn [res_map bind].
  - unfold dret at 1. exact (Hk a eq_refl s L Ho).
  - unfold dret at 1. destruct (Hh s L Ho) as (e & s2 & E2 & Ec2 & HQ & Hx). rewrite E2. exists (inr e), s2. unfold dret.
    split; [reflexivity|]. split; [lia|]. auto.
Qed.

(** A lifted step that always succeeds. *)
Lemma dlift_ok {A C E'} (a : A) (k : A -> X C E') h : xbind (dlift (Ok a)) k h = k a.
Proof. reflexivity. Qed.

(** *** Primitives *)
Lemma dspec_use x H : In x H -> is_obj x = true -> dspec (xuse x) H (fun _ => H) any.
Proof.
  intros Hin Hx s L Ho. exists tt, s. unfold xuse. rewrite (xown_live s (H ++ L) x Ho); auto using in_or_app.
  splits; auto. exact Logic.I.
Qed.

Lemma dspec_destroy x : dspec (xdestroy x) [x] nothing any.
Proof.
  intros s L Ho. exists tt, (lose x s). split.
  - unfold xdestroy. destruct x as [i|i|k|v]; try reflexivity; rewrite (xown_live s ([_] ++ L) _ Ho); try reflexivity; now left.
  - splits; [reflexivity|exact Logic.I|]. destruct Ho as [H1 H2 H3 H4]. split; auto. cbn [lose x_made x_gone nothing].
    rewrite H4. perm.
Qed.

Lemma xown_make s H x : is_obj x = true -> obj_id x = x_next s -> xown s H -> xown (make x s) (x :: H).
Proof.
  intros Hx Hi [H1 H2 H3 H4]. split; cbn [make x_made x_next x_gone]; auto.
  - cbn. rewrite Hx. constructor; [|exact H2]. intros Hin. apply H3 in Hin. lia.
  - cbn. rewrite Hx. intros y [<-|Hin]; [lia|]. apply H3 in Hin. lia.
  - cbn [app]. rewrite H4. perm.
Qed.

Lemma xown_make_kv s H x : is_obj x = false -> xown s H -> xown (make x s) (x :: H).
Proof.
  intros Hx [H1 H2 H3 H4]. split; cbn [make x_made x_next x_gone]; auto.
  - cbn. now rewrite Hx.
  - cbn. rewrite Hx. intros y Hin. apply H3 in Hin. lia.
  - cbn [app]. rewrite H4. perm.
Qed.

Lemma dspec_new_buf : dspec new_buf [] (fun id => [XBuf id]) any.
Proof.
  intros s L Ho. exists (x_next s), (make (XBuf (x_next s)) s). split; [reflexivity|]. split; [reflexivity|]. split; [exact Logic.I|].
  apply xown_make; auto.
Qed.

Lemma dspec_new_bnd : dspec (new_bnd bdrop) [] (fun id => bnd_things bdrop id) any.
Proof.
  intros s L Ho. unfold new_bnd, bnd_things. destruct bdrop.
  - exists (x_next s), (make (XBnd (x_next s)) s). split; [reflexivity|]. split; [reflexivity|]. split; [exact Logic.I|]. apply xown_make; auto.
  - exists (x_next s), s. split; [reflexivity|]. split; [reflexivity|]. split; [exact Logic.I|]. exact Ho.
Qed.

Lemma dspec_drop_bnd bid : dspec (drop_bnd bdrop bid) (bnd_things bdrop bid) nothing any.
Proof.
  unfold drop_bnd, bnd_things. destruct bdrop; [apply dspec_destroy|]. apply dspec_ret; [reflexivity|exact Logic.I].
Qed.

Lemma dspec_use_bnd bid H : part_of (bnd_things bdrop bid) H -> dspec (use_bnd bdrop bid) H (fun _ => H) any.
Proof.
  unfold use_bnd, bnd_things. destruct bdrop; intros [r Hp].
  - apply dspec_use; [|reflexivity]. rewrite Hp. now left.
  - apply dspec_ret; [reflexivity|exact Logic.I].
Qed.

Lemma dspec_drop_kv (kv : K * V) : dspec (drop_kv kv) (xkv_things kv) nothing any.
Proof.
  unfold drop_kv, xkv_things. eapply dspec_bind with (H1 := [XKey (fst kv)]) (F := [XVal (snd kv)]); [reflexivity|apply dspec_destroy|].
  intros [] _. apply dspec_destroy.
Qed.

Lemma dspec_drop_opt (v : option V) : dspec (drop_opt v) (xthe v) nothing any.
Proof. destruct v; [apply dspec_destroy|apply dspec_ret; [reflexivity|exact Logic.I]]. Qed.

Lemma cspec_dseq {A} (f : A -> D unit) (th : A -> list xthing) l :
  (forall x, In x l -> cspec (f x) (th x) nothing any) -> cspec (dseq f l) (flat_map th l) nothing any.
Proof.
  induction l as [|x l IH]; intros Hf; cbn [dseq flat_map].
  - apply cspec_ret; [apply keep_refl|exact Logic.I].
  - eapply cspec_bind with (H1 := th x) (F := flat_map th l); [reflexivity|apply Hf; now left|].
    intros [] _. apply IH. intros y Hy. apply Hf. now right.
Qed.

Lemma dspec_dseq {A} (f : A -> D unit) (th : A -> list xthing) l :
  (forall x, In x l -> dspec (f x) (th x) nothing any) -> dspec (dseq f l) (flat_map th l) nothing any.
Proof.
  induction l as [|x l IH]; intros Hf; cbn [dseq flat_map].
  - apply dspec_ret; [reflexivity|exact Logic.I].
  - eapply dspec_bind with (H1 := th x) (F := flat_map th l); [reflexivity|apply Hf; now left|].
    intros [] _. apply IH. intros y Hy. apply Hf. now right.
Qed.

Lemma cspec_drop_vec {T} (f : T -> D unit) (th : T -> list xthing) id l :
  (forall x, cspec (f x) (th x) nothing any) -> cspec (drop_vec f id l) (XBuf id :: flat_map th l) nothing any.
Proof.
  intros Hf. unfold drop_vec. eapply cspec_bind with (H1 := flat_map th (rev l)) (F := [XBuf id]).
  - rewrite <- (Permutation_flat_map_ th l (rev l) (Permutation_rev l)). perm.
  - apply cspec_dseq. auto.
  - intros [] _. apply dspec_cspec, dspec_destroy.
Qed.

Lemma dspec_drop_vec {T} (f : T -> D unit) (th : T -> list xthing) id l :
  (forall x, dspec (f x) (th x) nothing any) -> dspec (drop_vec f id l) (XBuf id :: flat_map th l) nothing any.
Proof.
  intros Hf. unfold drop_vec. eapply dspec_bind with (H1 := flat_map th (rev l)) (F := [XBuf id]).
  - rewrite <- (Permutation_flat_map_ th l (rev l) (Permutation_rev l)). perm.
  - apply dspec_dseq. auto.
  - intros [] _. apply dspec_destroy.
Qed.
End Own.
