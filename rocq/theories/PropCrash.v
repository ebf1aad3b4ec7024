(** Unwinding: what holds after user code, or the library itself, has panicked and the panic was caught (C48-C53). *)
From Verif Require Export CrashForest IterProof Witness.

(** *** Sample programs on 2-dimensional points *)
Definition x_ins (x y : Z) (v : nat) : mop (saabb i32 2) (svec i32 2) nat := MInsert 0 (pt x y) v.
Definition x_rem (x y : Z) : mop (saabb i32 2) (svec i32 2) nat := MRemove 0 _ (self_borrow PP) (pt x y).
(** [panics l]: the calls of user code numbered in [l] panic. *)
Definition panics (l : list nat) (n : nat) : bool := existsb (Nat.eqb n) l.
(** The five insertions that split the first leaf. *)
Definition x_five (cfg : config) : list (mop (saabb i32 2) (svec i32 2) nat) :=
  [MNew cfg; x_ins 0 0 1; x_ins 1 0 2; x_ins 9 9 3; x_ins 8 9 4; x_ins 0 1 5].
(** Which calls returned, and for every tree its height and its values in the order of iteration. *)
Definition x_summary {B K V} (r : option ((list (option (list (xthing K V))) * xforest B K V) * xmem K V))
  : option (list bool * list (option (nat * list V))) :=
  match r with
  | Some ((outs, F), _) =>
    Some (map (fun o => match o with Some _ => true | None => false end) outs,
          map (option_map (fun ct => (fst (snd ct), map snd (xentries (snd (snd ct)))))) F)
  | None => None
  end.

(** ** C48 *)

(** The full property: any program, any number of trees, any choice of panicking user code, every panic caught; no
    undefined behaviour.  Refuted: with [max_children = 1] the second insertion makes [NodeContainer::branch] panic while
    it holds a bitwise copy of the root, whose bounds are then destroyed twice; no user code panics. *)
Theorem C48_no_ub_refuted :
  ~ (forall (B K V : Type) (crash : nat -> bool) (bdrop : bool) (P : Params B K) (os : list (mop B K V)),
     xrun crash bdrop P [] os xinit <> None).
Proof.
  intros H. pose (os := [MNew (cfg_of 1 0); x_ins 0 0 1; x_ins 1 0 2; MDrop 0]).
  assert (HE : match xrun (panics []) true PP [] os xinit with Some _ => true | None => false end = false) by (vm_compute; reflexivity).
  specialize (H _ _ _ (panics []) true PP os).
  destruct (xrun (panics []) true PP [] os xinit); [discriminate|now apply H].
Qed.
Print Assumptions C48_no_ub_refuted.

(** What holds: if the bounds have no destructor, or no tree has [max_children = 1], there is no undefined behaviour
    whatever panics; and everything ever allocated, cloned or handed over is destroyed, or was given back, or is in a tree,
    or was leaked, each exactly once.  Only a call that panicked leaks. *)
Theorem C48_no_ub_partial :
  forall (B K V : Type) (crash : nat -> bool) (bdrop : bool) (P : Params B K) (os : list (mop B K V)),
  Forall (unwind_ok bdrop) os ->
  exists outs F s leaked, xrun crash bdrop P [] os xinit = Some ((outs, F), s) /\
    length outs = length os /\
    Permutation (x_made s ++ flat_map xgiven os) (x_gone s ++ got_back outs ++ xforest_things bdrop F ++ leaked) /\
    (Forall (fun o => o <> None) outs -> leaked = []).
Proof.
  intros * Hu. destruct (xrun_init crash bdrop P os [] Hu) as (outs & F & s & lost & E & _ & Hl & Ho & Hn).
  exists outs, F, s, lost. splits; auto. destruct Ho as [_ _ _ Ho]. rewrite app_nil_r in Ho. rewrite Ho. cbn [flat_map]. perm.
Qed.
Print Assumptions C48_no_ub_partial.

(** Vectors and stored bounds: what a tree owns is alive, and no two places of the trees own the same. *)
Theorem C48_owned_once_partial :
  forall (B K V : Type) (crash : nat -> bool) (bdrop : bool) (P : Params B K) (os : list (mop B K V)) outs F s,
  Forall (unwind_ok bdrop) os ->
  xrun crash bdrop P [] os xinit = Some ((outs, F), s) ->
  NoDup (objs (x_gone s ++ xforest_things bdrop F)) /\
  forall x, In x (objs (xforest_things bdrop F)) -> In x (x_made s) /\ ~ In x (x_gone s).
Proof.
  intros * Hu E. destruct (xrun_init crash bdrop P os [] Hu) as (outs' & F' & s' & lost & E' & _ & _ & Ho & _).
  rewrite E in E'. injection E' as <- <- <-. assert (Hob := xown_objs _ _ _ Ho). destruct Ho as [_ Hnd _ _].
  rewrite !objs_app in Hob. cbn [flat_map] in Hob.
  assert (Hp : Permutation (objs (x_made s)) (objs (x_gone s ++ xforest_things bdrop F) ++ objs (got_back outs) ++ objs lost)).
  { rewrite Hob, objs_app. change (objs (@nil (xthing K V))) with (@nil (xthing K V)). perm. }
  assert (Hnd' := Permutation_NoDup Hp Hnd).
  assert (Hn : NoDup (objs (x_gone s ++ xforest_things bdrop F))).
  { clear - Hnd'. revert Hnd'. generalize (objs (x_gone s ++ xforest_things bdrop F)). induction l as [|x l IH]; cbn; intros H; [constructor|].
    inversion H as [|? ? Hx Hl]; subst. constructor; [|now apply IH]. intros Hin. apply Hx, in_or_app. now left. }
  split; [exact Hn|]. intros x Hx. split.
  - assert (Hin : In x (objs (x_made s))).
    { eapply Permutation_in; [symmetry; exact Hp|]. apply in_or_app. left. rewrite objs_app. apply in_or_app. now right. }
    now apply in_objs in Hin.
  - intros Hg. rewrite objs_app in Hn. assert (Hg' : In x (objs (x_gone s))) by (apply in_objs; split; [exact Hg|now apply in_objs in Hx]).
    clear - Hn Hx Hg'. induction (objs (x_gone s)) as [|y l IH]; [contradiction|]. cbn in Hn. inversion Hn as [|? ? H1 H2]; subst.
    destruct Hg' as [->|Hg']; [apply H1, in_or_app; now right|now apply IH].
Qed.
Print Assumptions C48_owned_once_partial.

(** The fifth insertion unwinds from the creation of the new root, the program goes on and finally drops the tree. *)
Example C48_example :
  Forall (unwind_ok true) (x_five (cfg_of 4 2) ++ [x_ins 7 7 6; x_rem 0 0; MDrop 0]) /\
  x_summary (xrun (panics [23]) true PP [] (x_five (cfg_of 4 2) ++ [x_ins 7 7 6; x_rem 0 0]) xinit) =
    Some ([true; true; true; true; true; false; true; true], [Some (0, [6; 2; 5])]) /\
  x_summary (xrun (panics [23]) true PP [] (x_five (cfg_of 4 2) ++ [x_ins 7 7 6; x_rem 0 0; MDrop 0]) xinit) =
    Some ([true; true; true; true; true; false; true; true; true], [None]).
Proof. split; [repeat (apply Forall_cons; [first [exact Logic.I|right; cbn; lia]|]); apply Forall_nil|]. split; vm_compute; reflexivity. Qed.

(** ** C49 *)

(** From any state a program can reach, whatever panicked before: a call returns exactly what the model without panics
    computes on the trees as they are, with the effect on the contents its documentation says; or it unwinds, because user
    code panicked during the call or because the model without panics panics here too, and then it has touched no other
    tree and the tree holds only entries it had before or was being given. *)
Theorem C49_every_call :
  forall (B K V : Type) (crash : nat -> bool) (bdrop : bool) (P : Params B K) (os : list (mop B K V)) o outs F s,
  Forall (unwind_ok bdrop) (os ++ [o]) ->
  xrun crash bdrop P [] os xinit = Some ((outs, F), s) ->
  exists r s', xstep crash bdrop P F o s = Some (r, s') /\
  match r with
  | inl (x, F') =>
    pstep P (xforget_forest F) o = Ok (map thing_of x, xforget_forest F') /\
    done_as P o x (xforget_forest F) (xforget_forest F')
  | inr F' =>
    (crashed crash (x_calls s) (x_calls s') \/ pstep P (xforget_forest F) o = Panic) /\
    left_behind P o (xforget_forest F) (xforget_forest F')
  end.
Proof.
  intros * Hu E. apply Forall_app in Hu as [Hu Ho1]. inversion Ho1 as [|? ? Hu1 _]; subst.
  destruct (xrun_init crash bdrop P os [o] Hu) as (outs' & F' & s' & lost & E' & HF & _ & Ho & _).
  rewrite E in E'. injection E' as <- <- <-.
  destruct (xstep_spec0 crash bdrop (flat_map xgiven (os ++ [o])) P F o HF Hu1 s (got_back outs ++ lost)) as (r & s1 & E1 & _ & HR).
  { eapply xown_perm; [|exact Ho]. cbn [flat_map]. perm. }
  exists r, s1. split; [exact E1|]. destruct r as [[x F1]|F1].
  - destruct HR as (Hr & [_ Hd] & _). now split.
  - destruct HR as (Hr & [_ Hd] & _). now split.
Qed.
Print Assumptions C49_every_call.

(** After any caught panics, [len], iteration, [clone] and destruction of every tree are right: they see exactly the
    entries stored. *)
Theorem C49_trees_still_sound :
  forall (B K V : Type) (crash : nat -> bool) (bdrop : bool) (P : Params B K) (os : list (mop B K V)) outs F s i cfg t,
  Forall (unwind_ok bdrop) os ->
  xrun crash bdrop P [] os xinit = Some ((outs, F), s) ->
  ptree_at (xforget_forest F) i = Some (cfg, t) ->
  rtree_len t = Ok (length (contents t)) /\
  (exists st, rtree_iter t = Ok st /\ iterates iter_next st (contents t)) /\
  rtree_clone cfg t = Ok t /\
  (exists l, rtree_drop t = Ok l /\ Permutation l (contents t)).
Proof.
  intros * Hu E Et. destruct (xrun_init crash bdrop P os [] Hu) as (outs' & F' & s' & lost & E' & HF & _ & _ & _).
  rewrite E in E'. injection E' as <- <- <-. assert (Hw := fwf_wf bdrop F i cfg t HF Et). splits.
  - eapply node_len_spec, Hw.
  - eapply iter_wf, Hw.
  - unfold rtree_clone. rewrite (clone_node_spec _ _ _ _ _ _ _ Hw). cbn. now destruct t.
  - eapply drop_node_spec, Hw.
Qed.
Print Assumptions C49_trees_still_sound.

(** Without panics in user code and in supported configurations, nothing panics and the program does what the model
    without panics says (so all theorems about that model apply). *)
Theorem C49_agrees_without_panics :
  forall (B K V : Type) (crash : nat -> bool) (bdrop : bool) (P : Params B K) (os : list (mop B K V)),
  (forall n, crash n = false) -> Forall supported_op os ->
  exists outs F s, xrun crash bdrop P [] os xinit = Some ((outs, F), s) /\ Forall (fun o => o <> None) outs /\
    prun P [] os = Ok (map thing_of (got_back outs), xforget_forest F).
Proof.
  intros * Hc Hs.
  assert (Hu : Forall (unwind_ok bdrop) os).
  { eapply Forall_impl; [|exact Hs]. intros o. unfold supported_op, unwind_ok, supported. destruct o; auto. intros H. right. lia. }
  assert (HG : forall os (F : xforest B K V) s L, fwf bdrop F -> Forall (ForestProof.slot_ok P True) (xforget_forest F) ->
    Forall supported_op os -> Forall (unwind_ok bdrop) os -> forall gv, xown gv s (xforest_things bdrop F ++ flat_map xgiven os ++ L) ->
    exists outs F' s', xrun crash bdrop P F os s = Some ((outs, F'), s') /\ Forall (fun o => o <> None) outs /\
      prun P (xforget_forest F) os = Ok (map thing_of (got_back outs), xforget_forest F')).
  { clear - Hc. induction os as [|o os IH]; intros F s L HF HF0 Hs Hu gv Ho; cbn [xrun prun].
    - exists [], F, s. splits; auto.
    - inversion Hs as [|? ? Hs1 Hs2]; subst. inversion Hu as [|? ? Hu1 Hu2]; subst. cbn [flat_map] in Ho.
      assert (Hp := pstep_post P True (xforget_forest F) o HF0 (fun _ => Hs1)).
      destruct (xstep_spec0 crash bdrop gv P F o HF Hu1 s (flat_map xgiven os ++ L)) as (r & s1 & E & _ & HR).
      { eapply xown_perm; [|exact Ho]. perm. }
      unfold dbind. rewrite E. destruct r as [[x F1]|F1].
      + destruct HR as (Hr & [HF1 _] & Ho1). rewrite Hr in Hp |- *. cbn [post bind fst snd xout] in *.
        destruct (IH F1 s1 (x ++ L) HF1 Hp Hs2 Hu2 gv) as (outs & F' & s' & E' & Hall & Epr).
        { eapply xown_perm; [|exact Ho1]. perm. }
        unfold dbind. rewrite E', Epr. exists (Some x :: outs), F', s'. splits; auto; [constructor; [discriminate|exact Hall]|].
        cbn [bind]. rewrite got_back_cons. now rewrite map_app.
      + destruct HR as ([(n & _ & En)|Hr] & _); [congruence|]. rewrite Hr in Hp. cbn [post] in Hp. tauto. }
  apply (HG os [] xinit [] ltac:(constructor) ltac:(constructor) Hs Hu (flat_map xgiven os)).
  eapply xown_perm; [|apply xown_init, xgiven_not_obj]. cbn [xforest_things flat_map app]. now rewrite app_nil_r.
Qed.
Print Assumptions C49_agrees_without_panics.

(** A call on a damaged tree: the entry whose insertion panicked half-way is in the tree, and can be removed. *)
Example C49_example :
  x_summary (xrun (panics [3]) true PP [] [MNew (cfg_of 4 2); x_ins 0 0 1] xinit) = Some ([true; false], [Some (0, [1])]) /\
  x_summary (xrun (panics [3]) true PP [] [MNew (cfg_of 4 2); x_ins 0 0 1; x_rem 0 0] xinit) =
    Some ([true; false; true], [Some (0, [])]).
Proof. split; vm_compute; reflexivity. Qed.

(** ** C50 *)

(** The full property: a call that panics loses no stored entry (other than the one it is to remove or replace).  Refuted
    for [insert]: the fifth insertion panics and two entries inserted before are gone. *)
Theorem C50_nothing_lost_refuted :
  ~ (forall (crash : nat -> bool) (bdrop : bool) (os : list (mop (saabb i32 2) (svec i32 2) nat)) k v outs F s F' s' cfg t,
     Forall supported_op os ->
     xrun crash bdrop PP [] os xinit = Some ((outs, F), s) ->
     ptree_at (xforget_forest F) 0 = Some (cfg, t) ->
     xstep crash bdrop PP F (MInsert 0 k v) s = Some (inr F', s') ->
     exists t', ptree_at (xforget_forest F') 0 = Some (cfg, t') /\ part_of (contents t) (contents t')).
Proof.
  intros H.
  pose (os := removelast (x_five (cfg_of 4 2))).
  assert (HE : match xrun (panics [23]) true PP [] os xinit with
               | Some ((outs, F), s) =>
                 match ptree_at (xforget_forest F) 0, xstep (panics [23]) true PP F (x_ins 0 1 5) s with
                 | Some (cfg, t), Some (inr F', s') =>
                   match ptree_at (xforget_forest F') 0 with
                   | Some (_, t') => length (contents t') <? length (contents t)
                   | None => true
                   end
                 | _, _ => false
                 end
               | None => false
               end = true) by (vm_compute; reflexivity).
  assert (Hs : Forall supported_op os) by (repeat constructor; cbn; lia).
  destruct (xrun (panics [23]) true PP [] os xinit) as [[[outs F] s]|] eqn:E1; [|discriminate].
  destruct (ptree_at (xforget_forest F) 0) as [[cfg t]|] eqn:E2; [|discriminate].
  destruct (xstep (panics [23]) true PP F (x_ins 0 1 5) s) as [[[r|F'] s']|] eqn:E3; [discriminate| |discriminate].
  destruct (H (panics [23]) true os (pt 0 1) 5 outs F s F' s' cfg t Hs E1 E2 E3) as (t' & E4 & Hp).
  rewrite E4 in HE. apply Nat.ltb_lt in HE. destruct Hp as [r Hp]. apply Permutation_length in Hp. rewrite app_length in Hp. lia.
Qed.
Print Assumptions C50_nothing_lost_refuted.

(** What holds: the calls that do not insert or remove change nothing when they panic, and a call never touches another tree
    than its own. *)
Theorem C50_nothing_lost_partial :
  forall (B K V : Type) (crash : nat -> bool) (bdrop : bool) (P : Params B K) (os : list (mop B K V)) o outs F s F' s',
  Forall (unwind_ok bdrop) (os ++ [o]) ->
  xrun crash bdrop P [] os xinit = Some ((outs, F), s) ->
  xstep crash bdrop P F o s = Some (inr F', s') ->
  match o with
  | MInsert i _ _ | MInsertUnique i _ _ | MRemove i _ _ _ =>
    forall j, j <> i -> nth_error (xforget_forest F') j = nth_error (xforget_forest F) j
  | _ => xforget_forest F' = xforget_forest F
  end.
Proof.
  intros * Hu E E1. destruct (C49_every_call _ _ _ _ _ _ _ _ _ _ _ Hu E) as (r & s2 & E2 & HR).
  rewrite E1 in E2. injection E2 as <- <-. destruct HR as [_ HL].
  assert (Hch : forall i N R F1 F2, @changed B K V i N R F1 F2 -> forall j, j <> i -> nth_error F2 j = nth_error F1 j).
  { clear. intros i N R F1 F2 H j Hj. unfold changed in H. destruct (ptree_at F1 i) as [[c t]|].
    - destruct H as (t' & -> & _). generalize (Some (c, t')). intros x. revert i j Hj; induction F1 as [|y F1 IH]; intros [|i] [|j] Hj; cbn; auto; congruence.
    - now destruct H as [_ ->]. }
  destruct o; cbn [left_behind] in HL; auto; try (eapply Hch; exact HL). contradiction.
Qed.
Print Assumptions C50_nothing_lost_partial.

(** And: an insertion into a tree none of whose nodes is full loses no stored entry when it panics; a removal from a tree
    whose nodes (but the root) are all above their minimum loses at most one entry, and that is a match. *)
Theorem C50_calm_partial :
  forall (B K V : Type) (crash : nat -> bool) (bdrop : bool) (P : Params B K) (os : list (mop B K V)) o outs F s F' s',
  Forall (unwind_ok bdrop) (os ++ [o]) ->
  xrun crash bdrop P [] os xinit = Some ((outs, F), s) ->
  calm o (xforget_forest F) ->
  xstep crash bdrop P F o s = Some (inr F', s') ->
  left_behind P o (xforget_forest F) (xforget_forest F') /\ kept P o (xforget_forest F) (xforget_forest F').
Proof.
  intros * Hu E Hcalm E1. apply Forall_app in Hu as [Hu Ho1]. inversion Ho1 as [|? ? Hu1 _]; subst.
  destruct (xrun_init crash bdrop P os [o] Hu) as (outs' & F1 & s1 & lost & E' & HF & _ & Ho & _).
  rewrite E in E'. injection E' as <- <- <-.
  set (lk := match o with MRemove _ _ _ _ => True | _ => False end).
  destruct (xstep_spec crash bdrop (flat_map xgiven (os ++ [o])) lk True P F o HF Hu1) with (s := s) (L := got_back outs ++ lost)
    as (r & s1 & E2 & _ & HR).
  { unfold lk. destruct o; cbn [leak_free calm] in *; try contradiction. intros _. exact Hcalm. }
  { intros _. exact Hcalm. }
  { eapply xown_perm; [|exact Ho]. cbn [flat_map]. perm. }
  rewrite E1 in E2. injection E2 as <- <-. destruct HR as (_ & (_ & HL & Hk) & _). split.
  - exact HL.
  - apply Hk; [exact Logic.I|]. unfold lk. destruct o; exact Logic.I.
Qed.
Print Assumptions C50_calm_partial.

(** *** Checking the hypotheses of the theorems above on concrete trees *)
(** Level and number of children of every node. *)
Fixpoint fans {B K V} (i : nat) (n : node B K V) : list (nat * nat) :=
  (i, fanout n) :: match i, node_children n with S j, CInner cs => flat_map (fans j) cs | _, _ => [] end.
Lemma fans_head {B K V} i (n : node B K V) : In (i, fanout n) (fans i n).
Proof. destruct i; left; reflexivity. Qed.
Lemma fans_trans {B K V} (t : rtree B K V) i n : node_at t i n -> forall p, In p (fans i n) -> In p (fans (fst t) (snd t)).
Proof.
  induction 1 as [|i b cs c H IH Hc]; intros p Hp; [exact Hp|]. apply IH. cbn [fans node_children]. right.
  apply in_flat_map. exists c. split; assumption.
Qed.
Lemma fans_all {B K V} (t : rtree B K V) (f : nat -> nat -> bool) :
  forallb (fun p => f (fst p) (snd p)) (fans (fst t) (snd t)) = true -> forall i n, node_at t i n -> f i (fanout n) = true.
Proof. intros H i n Hn. exact (proj1 (forallb_forall _ _) H _ (fans_trans t i n Hn _ (fans_head i n))). Qed.

Definition calm_check {B K V} (o : mop B K V) (F : pforest B K V) : bool :=
  match o with
  | MInsert i _ _ | MInsertUnique i _ _ =>
    match ptree_at F i with
    | Some (cfg, t) => forallb (fun p => snd p <? max_children cfg) (fans (fst t) (snd t))
    | None => true end
  | MRemove i _ _ _ =>
    match ptree_at F i with
    | Some (cfg, t) => forallb (fun p => (fst t <=? fst p) || (min_children cfg <? snd p)) (fans (fst t) (snd t))
    | None => true end
  | _ => true
  end.
Lemma calm_check_ok {B K V} (o : mop B K V) F : calm_check o F = true -> calm o F.
Proof.
  destruct o; cbn [calm_check calm]; try (intros; exact Logic.I); intros H cfg t E; rewrite E in H.
  1,2: intros j n Hn; apply Nat.ltb_lt; exact (fans_all t (fun _ m => m <? max_children cfg) H j n Hn).
  right. intros j n Hn Hj. pose proof (fans_all t (fun l m => (fst t <=? l) || (min_children cfg <? m)) H j n Hn) as Hf. cbn beta in Hf.
  apply orb_true_iff in Hf as [Hf|Hf]; [apply Nat.leb_le in Hf; lia|apply Nat.ltb_lt in Hf; exact Hf].
Qed.
Definition leak_free_check {B K V} (o : mop B K V) (F : pforest B K V) : bool :=
  match o with
  | MInsert i _ _ | MInsertUnique i _ _ =>
    match ptree_at F i with
    | Some (cfg, t) => negb (max_children cfg =? 1) &&
                       forallb (fun p => (fst p =? 0) || (snd p <? max_children cfg)) (fans (fst t) (snd t))
    | None => true end
  | MClone i => match ptree_at F i with Some (cfg, t) => fst t =? 0 | None => true end
  | _ => calm_check o F
  end.
Lemma leak_free_check_ok {B K V} (o : mop B K V) F : leak_free_check o F = true -> leak_free o F.
Proof.
  destruct o; cbn [leak_free_check leak_free]; try (intros; exact Logic.I).
  1,2: intros H cfg t E; rewrite E in H; apply andb_prop in H as [H1 H2]; split;
    [apply negb_true_iff in H1; now apply Nat.eqb_neq|]; intros j n Hn;
    pose proof (fans_all t (fun l m => (l =? 0) || (m <? max_children cfg)) H2 (S j) n Hn) as Hf; now apply Nat.ltb_lt.
  - exact (calm_check_ok (MRemove _ _ _ _) F).
  - intros H cfg t E. rewrite E in H. now apply Nat.eqb_eq.
Qed.
(** Runs [os], then [o], with the calls in [l] panicking: is the hypothesis [chk] met before [o], and what is left? *)
Definition x_case (chk : mop (saabb i32 2) (svec i32 2) nat -> pforest (saabb i32 2) (svec i32 2) nat -> bool) (l : list nat)
  (os : list (mop (saabb i32 2) (svec i32 2) nat)) o :=
  match xrun (panics l) true PP [] os xinit with
  | Some ((outs, F), s) => Some (chk o (xforget_forest F), x_summary (xrun (panics l) true PP [] (os ++ [o]) xinit))
  | None => None
  end.
Example C50_calm_example :
  (* an insertion into a tree of height 1 whose bounds code panics after the entry is in; a removal that panics after the
     entry is out *)
  x_case calm_check [28] (x_five (cfg_of 4 2)) (x_ins 20 20 6) =
    Some (true, Some ([true; true; true; true; true; true; false], [Some (1, [1; 2; 5; 3; 4; 6])])) /\
  x_case calm_check [28] (x_five (cfg_of 4 1)) (x_rem 0 1) =
    Some (true, Some ([true; true; true; true; true; true; false], [Some (1, [1; 2; 3; 4])])).
Proof. split; vm_compute; reflexivity. Qed.

(** A lookup that panics leaves the tree alone. *)
Example C50_example :
  x_summary (xrun (panics [26]) true PP [] (x_five (cfg_of 4 2) ++ [MReplace 0 _ (self_borrow PP) (pt 9 9) 7]) xinit) =
    Some ([true; true; true; true; true; true; false], [Some (1, [1; 2; 5; 3; 4])]).
Proof. vm_compute. reflexivity. Qed.

(** ** C51 *)

(** The full property: after caught panics every stored key is found.  Refuted: an insertion that panics between the leaf
    and its parents leaves bounds that do not cover the new entry. *)
Theorem C51_still_found_refuted :
  ~ (forall (crash : nat -> bool) (bdrop : bool) (os : list (mop (saabb i32 2) (svec i32 2) nat)) outs F s i cfg t k v,
     Forall supported_op os ->
     xrun crash bdrop PP [] os xinit = Some ((outs, F), s) ->
     ptree_at (xforget_forest F) i = Some (cfg, t) -> In (k, v) (contents t) ->
     exists v', rtree_get PP (self_borrow PP) t k = Ok (Some v')).
Proof.
  intros H. pose (os := x_five (cfg_of 4 2) ++ [x_ins 20 20 6]).
  assert (HE : match xrun (panics [28]) true PP [] os xinit with
               | Some ((outs, F), s) =>
                 match ptree_at (xforget_forest F) 0 with
                 | Some (cfg, t) =>
                   existsb (fun kv => match rtree_get PP (self_borrow PP) t (fst kv) with Ok None => true | _ => false end) (contents t)
                 | None => false
                 end
               | None => false
               end = true) by (vm_compute; reflexivity).
  assert (Hs : Forall supported_op os) by (repeat constructor; cbn; lia).
  destruct (xrun (panics [28]) true PP [] os xinit) as [[[outs F] s]|] eqn:E1; [|discriminate].
  destruct (ptree_at (xforget_forest F) 0) as [[cfg t]|] eqn:E2; [|discriminate].
  apply existsb_exists in HE as ([k v] & Hin & Hg).
  destruct (H (panics [28]) true os outs F s 0 cfg t k v Hs E1 E2 Hin) as (v' & Ev). cbn [fst] in Hg.
  assert (Hf : match rtree_get PP (self_borrow PP) t k with Ok None => false | _ => true end = true) by (rewrite Ev; reflexivity).
  destruct (rtree_get PP (self_borrow PP) t k) as [[x|]| | |]; discriminate.
Qed.
Print Assumptions C51_still_found_refuted.

(** What holds: whatever is found is stored under a matching key. *)
Theorem C51_found_is_stored_partial :
  forall (B K V Q : Type) (crash : nat -> bool) (bdrop : bool) (P : Params B K) (BR : Borrowed B K Q) (os : list (mop B K V))
    outs F s i cfg t q,
  Forall (unwind_ok bdrop) os ->
  xrun crash bdrop P [] os xinit = Some ((outs, F), s) ->
  ptree_at (xforget_forest F) i = Some (cfg, t) ->
  exists r, rtree_get P BR t q = Ok r /\
    (forall v, r = Some v -> exists k, In (k, v) (contents t) /\ q_eq BR (borrow BR k) q = true).
Proof.
  intros * Hu E Et. destruct (xrun_init crash bdrop P os [] Hu) as (outs' & F' & s' & lost & E' & HF & _ & _ & _).
  rewrite E in E'. injection E' as <- <- <-. assert (Hw := fwf_wf bdrop F i cfg t HF Et).
  destruct (node_get_mut_spec P BR cfg any_key rel_any 0 False False ltac:(tauto) (fst t) (snd t) q Hw) as (r & Eg & Hr & _).
  unfold rtree_get. rewrite node_get_get_mut, Eg. cbn [bind]. eexists. split; [reflexivity|].
  intros v Hv. destruct r as [[v0 put]|]; cbn [option_map fst lookup_post] in *; [|discriminate]. injection Hv as ->.
  destruct Hr as (l1 & k & l2 & Ee & Hk & _). exists k. split; [unfold contents; rewrite Ee; apply in_or_app; right; now left|exact Hk].
Qed.
Print Assumptions C51_found_is_stored_partial.

(** ** C52 *)

(** The full property: in supported configurations, also after caught panics, a call panics only if user code does.
    Refuted: two removals that panic leave an inner root without children; the next insertion panics by itself. *)
Theorem C52_no_own_panic_refuted :
  ~ (forall (crash : nat -> bool) (bdrop : bool) (os : list (mop (saabb i32 2) (svec i32 2) nat)) o outs F s F' s',
     Forall supported_op (os ++ [o]) ->
     xrun crash bdrop PP [] os xinit = Some ((outs, F), s) ->
     xstep crash bdrop PP F o s = Some (inr F', s') ->
     crashed crash (x_calls s) (x_calls s')).
Proof.
  intros H. pose (os := x_five (cfg_of 4 2) ++ [x_rem 0 0; x_rem 9 9; x_rem 1 0]).
  assert (HE : match xrun (panics [32; 36]) true PP [] os xinit with
               | Some ((outs, F), s) =>
                 match xstep (panics [32; 36]) true PP F (x_ins 5 5 8) s with
                 | Some (inr _, _) => 37 <=? x_calls s
                 | _ => false
                 end
               | None => false
               end = true) by (vm_compute; reflexivity).
  assert (Hs : Forall supported_op (os ++ [x_ins 5 5 8])) by (repeat constructor; cbn; lia).
  destruct (xrun (panics [32; 36]) true PP [] os xinit) as [[[outs F] s]|] eqn:E1; [|discriminate].
  destruct (xstep (panics [32; 36]) true PP F (x_ins 5 5 8) s) as [[[r|F'] s']|] eqn:E3; [discriminate| |discriminate].
  destruct (H (panics [32; 36]) true os (x_ins 5 5 8) outs F s F' s' Hs E1 E3) as (n & Hn & Hcr).
  apply Nat.leb_le in HE. unfold panics in Hcr. apply existsb_exists in Hcr as (m & Hm & Ex). apply Nat.eqb_eq in Ex. subst m.
  destruct Hm as [<-|[<-|[]]]; lia.
Qed.
Print Assumptions C52_no_own_panic_refuted.

(** What holds: creating, looking up and replacing, cloning and dropping panic only if user code does, in any
    configuration and whatever panicked before. *)
Theorem C52_no_own_panic_partial :
  forall (B K V : Type) (crash : nat -> bool) (bdrop : bool) (P : Params B K) (os : list (mop B K V)) o outs F s F' s',
  Forall (unwind_ok bdrop) (os ++ [o]) ->
  match o with MInsert _ _ _ | MInsertUnique _ _ _ | MRemove _ _ _ _ => False | _ => True end ->
  xrun crash bdrop P [] os xinit = Some ((outs, F), s) ->
  xstep crash bdrop P F o s = Some (inr F', s') ->
  crashed crash (x_calls s) (x_calls s').
Proof.
  intros * Hu Hkind E E1. destruct (C49_every_call _ _ _ _ _ _ _ _ _ _ _ Hu E) as (r & s2 & E2 & HR).
  rewrite E1 in E2. injection E2 as <- <-. destruct HR as [[Hc|Hp] _]; [exact Hc|exfalso].
  apply Forall_app in Hu as [Hu _]. destruct (xrun_init crash bdrop P os [] Hu) as (outs' & F1 & s1 & lost & E' & HF & _ & _ & _).
  rewrite E in E'. injection E' as <- <- <-.
  destruct o as [cfg|i k v|i k v|i Q BR q|i Q BR q v|i|i]; try contradiction; cbn [pstep] in Hp; [discriminate| | |];
    destruct (ptree_at (xforget_forest F) i) as [[cfg t]|] eqn:Et; try discriminate;
    assert (Hw := fwf_wf bdrop F i cfg t HF Et).
  - unfold rtree_get_mut in Hp.
    destruct (node_get_mut_spec P BR cfg any_key rel_any 0 False False ltac:(tauto) (fst t) (snd t) q Hw) as (r & Er & _).
    rewrite Er in Hp. cbn [bind] in Hp. destruct r as [[old put]|]; discriminate.
  - unfold rtree_clone in Hp. rewrite (clone_node_spec _ _ _ _ _ _ _ Hw) in Hp. discriminate.
  - destruct (drop_node_spec _ _ _ _ _ _ _ Hw) as (l & El & _). unfold rtree_drop in Hp. rewrite El in Hp. discriminate.
Qed.
Print Assumptions C52_no_own_panic_partial.

(** ** C53 *)

(** Everything that was allocated, cloned or handed over and is neither destroyed, nor given back, nor in a tree. *)
Definition leaks {B K V} (bdrop : bool) (os : list (mop B K V)) (outs : list (option (list (xthing K V)))) (F : xforest B K V)
  (s : xmem K V) (leaked : list (xthing K V)) : Prop :=
  Permutation (x_made s ++ flat_map xgiven os) (x_gone s ++ got_back outs ++ xforest_things bdrop F ++ leaked).

(** The full property: a call that panics leaks nothing.  Refuted: a [clone] that panics in a tree with inner nodes. *)
Theorem C53_no_leak_refuted :
  ~ (forall (crash : nat -> bool) (bdrop : bool) (os : list (mop (saabb i32 2) (svec i32 2) nat)) outs F s,
     Forall supported_op os ->
     xrun crash bdrop PP [] os xinit = Some ((outs, F), s) ->
     leaks bdrop os outs F s []).
Proof.
  intros H. pose (os := x_five (cfg_of 4 2) ++ [MClone 0]).
  assert (HE : match xrun (panics [34]) true PP [] os xinit with
               | Some ((outs, F), s) =>
                 length (x_gone s ++ got_back outs ++ xforest_things true F ++ []) <? length (x_made s ++ flat_map xgiven os)
               | None => false
               end = true) by (vm_compute; reflexivity).
  assert (Hs : Forall supported_op os) by (repeat constructor; cbn; lia).
  destruct (xrun (panics [34]) true PP [] os xinit) as [[[outs F] s]|] eqn:E1; [|discriminate].
  specialize (H (panics [34]) true os outs F s Hs E1). apply Permutation_length in H. apply Nat.ltb_lt in HE. lia.
Qed.
Print Assumptions C53_no_leak_refuted.

(** What holds: if every call returned, nothing leaked. *)
Theorem C53_no_leak_partial :
  forall (B K V : Type) (crash : nat -> bool) (bdrop : bool) (P : Params B K) (os : list (mop B K V)) outs F s,
  Forall (unwind_ok bdrop) os ->
  xrun crash bdrop P [] os xinit = Some ((outs, F), s) ->
  Forall (fun o => o <> None) outs -> leaks bdrop os outs F s [].
Proof.
  intros * Hu E Hall. destruct (C48_no_ub_partial B K V crash bdrop P os Hu) as (outs' & F' & s' & lost & E' & _ & Hp & Hn).
  rewrite E in E'. injection E' as <- <- <-. now rewrite (Hn Hall) in Hp.
Qed.
Print Assumptions C53_no_leak_partial.

(** And: a call that panics leaks nothing more than what was leaked before if it creates a tree, looks up or replaces; if it
    clones a tree of height 0; if it inserts into a tree none of whose inner nodes is full; and if it removes from a tree
    whose nodes (but the root) are all above their minimum. *)
Theorem C53_leak_free_partial :
  forall (B K V : Type) (crash : nat -> bool) (bdrop : bool) (P : Params B K) (os : list (mop B K V)) o outs F s F' s' leaked,
  Forall (unwind_ok bdrop) (os ++ [o]) ->
  xrun crash bdrop P [] os xinit = Some ((outs, F), s) ->
  leak_free o (xforget_forest F) ->
  xstep crash bdrop P F o s = Some (inr F', s') ->
  leaks bdrop os outs F s leaked -> leaks bdrop (os ++ [o]) (outs ++ [None]) F' s' leaked.
Proof.
  intros * Hu E Hfree E1 HL. apply Forall_app in Hu as [Hu Ho1]. inversion Ho1 as [|? ? Hu1 _]; subst.
  destruct (xrun_init crash bdrop P os [o] Hu) as (outs' & F1 & s1 & lost & E' & HF & _ & Ho & _).
  rewrite E in E'. injection E' as <- <- <-.
  destruct (xstep_spec crash bdrop (flat_map xgiven (os ++ [o])) True False P F o HF Hu1) with (s := s) (L := got_back outs ++ lost)
    as (r & s1 & E2 & _ & HR).
  { intros _. exact Hfree. }
  { intros []. }
  { eapply xown_perm; [|exact Ho]. cbn [flat_map]. perm. }
  rewrite E1 in E2. injection E2 as <- <-. destruct HR as (_ & _ & leak & Ho2 & Hnone). rewrite (Hnone Logic.I) in Ho2.
  destruct Ho as [_ _ _ Ho]. destruct Ho2 as [_ _ _ Ho2]. unfold leaks in *.
  assert (Hll : Permutation leaked lost).
  { rewrite flat_map_app in Ho.
    apply (Permutation_app_inv_l (x_gone s ++ got_back outs ++ xforest_things bdrop F)).
    apply (Permutation_app_inv_r (flat_map xgiven [o])).
    transitivity ((x_made s ++ flat_map xgiven os) ++ flat_map xgiven [o]); [rewrite HL; perm|]. rewrite <- app_assoc, Ho. perm. }
  rewrite Ho2, Hll. unfold got_back. rewrite flat_map_app. cbn [flat_map app]. perm.
Qed.
Print Assumptions C53_leak_free_partial.

(** A program all of whose panicking calls are of these kinds leaks nothing. *)
Theorem C53_leak_free_program_partial :
  forall (B K V : Type) (crash : nat -> bool) (bdrop : bool) (P : Params B K) (os : list (mop B K V)) outs F s,
  Forall (unwind_ok bdrop) os ->
  (forall os1 o os2 outs1 F1 s1 F2 s2, os = os1 ++ o :: os2 -> xrun crash bdrop P [] os1 xinit = Some ((outs1, F1), s1) ->
     xstep crash bdrop P F1 o s1 = Some (inr F2, s2) -> leak_free o (xforget_forest F1)) ->
  xrun crash bdrop P [] os xinit = Some ((outs, F), s) ->
  leaks bdrop os outs F s [].
Proof.
  intros B K V crash bdrop P os. induction os as [|o os IH] using rev_ind; intros outs F s Hu Hfree E.
  - cbn in E. injection E as <- <- <-. unfold leaks. cbn. constructor.
  - assert (Hu0 := Hu). apply Forall_app in Hu0 as [Hu0 Ho1]. inversion Ho1 as [|? ? Hu1 _]; subst.
    destruct (xrun_app _ _ _ _ _ _ _ _ _ _ E) as (outs1 & outs2 & F1 & s1 & -> & E1 & E2).
    assert (HL : leaks bdrop os outs1 F1 s1 []).
    { apply IH; auto. intros os1 o' os2 outs3 F3 s3 F4 s4 -> E3 E4.
      apply (Hfree os1 o' (os2 ++ [o]) outs3 F3 s3 F4 s4); auto. now rewrite <- app_assoc. }
    cbn [xrun] in E2. unfold dbind in E2. destruct (xstep crash bdrop P F1 o s1) as [[[[x F2]|F2] s2]|] eqn:E3; [| |discriminate].
    + cbn in E2. injection E2 as <- <- <-.
      destruct (xrun_init crash bdrop P os [o] Hu0) as (outs' & F' & s' & lost & E' & HF & _ & Ho & _).
      rewrite E1 in E'. injection E' as <- <- <-.
      destruct (xstep_spec0 crash bdrop (flat_map xgiven (os ++ [o])) P F1 o HF Hu1 s1 (got_back outs1 ++ lost)) as (r & s3 & E4 & _ & HR).
      { eapply xown_perm; [|exact Ho]. cbn [flat_map]. perm. }
      rewrite E3 in E4. injection E4 as <- <-. destruct HR as (_ & _ & Ho2). cbn [fst snd] in Ho2.
      destruct Ho as [_ _ _ Ho]. destruct Ho2 as [_ _ _ Ho2]. unfold leaks in *.
      assert (Hll : Permutation [] lost).
      { rewrite flat_map_app in Ho.
        apply (Permutation_app_inv_l (x_gone s1 ++ got_back outs1 ++ xforest_things bdrop F1)).
        apply (Permutation_app_inv_r (flat_map xgiven [o])).
        transitivity ((x_made s1 ++ flat_map xgiven os) ++ flat_map xgiven [o]); [rewrite HL; perm|]. rewrite <- app_assoc, Ho. perm. }
      apply Permutation_nil in Hll. subst lost. rewrite Ho2. unfold got_back. rewrite flat_map_app. cbn [flat_map app]. perm.
    + cbn in E2. injection E2 as <- <- <-.
      apply (C53_leak_free_partial B K V crash bdrop P os o outs1 F1 s1 F2 s2 [] Hu E1); auto.
      apply (Hfree os o [] outs1 F1 s1 F2 s2); auto.
Qed.
Print Assumptions C53_leak_free_program_partial.

Example C53_example :
  x_summary (xrun (panics []) true PP [] (x_five (cfg_of 4 2) ++ [MClone 0; x_rem 9 9; MDrop 0]) xinit) =
    Some ([true; true; true; true; true; true; true; true; true], [None; Some (1, [1; 2; 5; 3; 4])]).
Proof. vm_compute. reflexivity. Qed.

Example C53_leak_free_example :
  (* the insertion that splits the root leaf; a removal; a clone of a leaf that panics half way *)
  x_case leak_free_check [23] (removelast (x_five (cfg_of 4 2))) (x_ins 0 1 5) =
    Some (true, Some ([true; true; true; true; true; false], [Some (0, [1; 2; 5])])) /\
  x_case leak_free_check [28] (x_five (cfg_of 4 1)) (x_rem 0 1) =
    Some (true, Some ([true; true; true; true; true; true; false], [Some (1, [1; 2; 3; 4])])) /\
  x_case leak_free_check [20] (x_five (cfg_of 5 1)) (MClone 0) =
    Some (true, Some ([true; true; true; true; true; true; false], [Some (0, [1; 2; 3; 4; 5])])).
Proof. repeat split; vm_compute; reflexivity. Qed.
