(** Proofs for C84: what two trees driven by the same calls have in common, whatever their sizes, bounds and volumes. *)
From Verif Require Import Main.
From Verif Require Export IndepSpec.

Section Abs.
Context {K V : Type} (eqb : K -> K -> bool).
Notation entry := (K * V)%type.

(** What a call may answer and leave behind, as far as the multiset of entries tells. *)
Definition absent (l : list entry) (k : K) : Prop := forall kv, In kv l -> eqb (fst kv) k = false.
Definition abs_step (l : list entry) (o : op K V) (x : out V) (l' : list entry) : Prop :=
  match o with
  | OInsert k v => x = OutUnit /\ Permutation l' ((k, v) :: l)
  | OInsertUnique k v =>
    (x = OutVal None /\ absent l k /\ Permutation l' ((k, v) :: l))
    \/ exists a old rest, x = OutVal (Some old) /\ eqb a k = true
         /\ Permutation l ((a, old) :: rest) /\ Permutation l' ((a, v) :: rest)
  | ORemove k =>
    (x = OutVal None /\ absent l k /\ Permutation l' l)
    \/ exists a old rest, x = OutVal (Some old) /\ eqb a k = true
         /\ Permutation l ((a, old) :: rest) /\ Permutation l' rest
  | OGet k =>
    Permutation l' l /\ ((x = OutVal None /\ absent l k)
      \/ exists a old, x = OutVal (Some old) /\ eqb a k = true /\ In (a, old) l)
  | OSet k v =>
    (x = OutVal None /\ absent l k /\ Permutation l' l)
    \/ exists a old rest, x = OutVal (Some old) /\ eqb a k = true
         /\ Permutation l ((a, old) :: rest) /\ Permutation l' ((a, v) :: rest)
  | OLen => x = OutNat (length l) /\ Permutation l' l
  | OIsEmpty => x = OutBool (Nat.eqb (length l) 0) /\ Permutation l' l
  | OClone => x = OutUnit /\ Permutation l' l
  end.

Context (EL : key_eq_laws eqb).

(** *** The multiset of keys up to equality *)
Notation hits := (IndepSpec.hits (V := V) eqb).
Definition like (l l' : list entry) : Prop := forall k, hits k l = hits k l'.

Lemma filter_perm {A} (f : A -> bool) l l' : Permutation l l' -> Permutation (filter f l) (filter f l').
Proof.
  induction 1; cbn.
  - constructor.
  - destruct (f x); auto.
  - destruct (f x), (f y); auto. constructor.
  - eauto using perm_trans.
Qed.
Lemma hits_perm k l l' : Permutation l l' -> hits k l = hits k l'.
Proof. intros H. apply Permutation_length, filter_perm, H. Qed.
Lemma hits_cons k a l : hits k (a :: l) = (if eqb (fst a) k then 1 else 0) + hits k l.
Proof. unfold IndepSpec.hits. cbn [filter]. now destruct (eqb (fst a) k). Qed.
Lemma absent_hits l k : absent l k <-> hits k l = 0.
Proof.
  induction l as [|a l IH].
  - split; [reflexivity|intros _ kv []].
  - rewrite hits_cons. split.
    + intros H. rewrite (H a (or_introl eq_refl)). apply IH. intros kv Hin. apply H. now right.
    + intros H. destruct (eqb (fst a) k) eqn:E; [lia|]. intros kv [->|Hin]; [exact E|apply IH; auto].
Qed.
Lemma present_hits l k a v : eqb a k = true -> In (a, v) l -> hits k l <> 0.
Proof. intros Ha Hin H. apply absent_hits in H. specialize (H _ Hin). cbn in H. congruence. Qed.
Lemma eqb_same a b : eqb a b = true -> forall k, eqb a k = eqb b k.
Proof.
  intros H k. destruct (eqb b k) eqn:E; [now apply (keq_trans _ EL a b)|].
  destruct (eqb a k) eqn:E2; [|reflexivity]. apply (keq_sym _ EL) in H. rewrite (keq_trans _ EL _ _ _ H E2) in E. discriminate.
Qed.

(** *** Answers alike *)

(** The number of entries is also a number of hits, so one needs it separately. *)
Lemma step_like l1 l2 o x1 x2 l1' l2' :
  like l1 l2 -> length l1 = length l2 -> abs_step l1 o x1 l1' -> abs_step l2 o x2 l2' ->
  alike x1 x2 /\ like l1' l2' /\ length l1' = length l2'.
Proof.
  intros HL Hn S1 S2.
  assert (Habs : forall k, absent l1 k -> absent l2 k) by (intros k; rewrite !absent_hits, HL; auto).
  assert (Hpres : forall k a v, eqb a k = true -> In (a, v) l1 -> ~ absent l2 k).
  { intros k a v Ha Hin. rewrite absent_hits, <- HL. now apply (present_hits l1 k a v). }
  assert (Hpres2 : forall k a v, eqb a k = true -> In (a, v) l2 -> ~ absent l1 k).
  { intros k a v Ha Hin. rewrite absent_hits, HL. now apply (present_hits l2 k a v). }
  assert (Hin : forall (l : list entry) a v rest, Permutation l ((a, v) :: rest) -> In (a, v) l)
    by (intros l a v rest H; rewrite H; now left).
  assert (Hlen := fun (A : Type) (l l' : list A) (H : Permutation l l') => Permutation_length H).
  destruct o as [k v|k v|k|k|k v| | |]; cbn [abs_step] in S1, S2.
  - destruct S1 as [-> P1], S2 as [-> P2]. split; [reflexivity|]. split.
    + intros k'. rewrite (hits_perm k' _ _ P1), (hits_perm k' _ _ P2), !hits_cons. now rewrite HL.
    + rewrite (Hlen _ _ _ P1), (Hlen _ _ _ P2). cbn. now rewrite Hn.
  - destruct S1 as [(-> & A1 & P1)|(a1 & o1 & r1 & -> & E1 & P1 & Q1)], S2 as [(-> & A2 & P2)|(a2 & o2 & r2 & -> & E2 & P2 & Q2)].
    + split; [cbn; tauto|]. split.
      * intros k'. rewrite (hits_perm k' _ _ P1), (hits_perm k' _ _ P2), !hits_cons. now rewrite HL.
      * rewrite (Hlen _ _ _ P1), (Hlen _ _ _ P2). cbn. now rewrite Hn.
    + exfalso. exact (Hpres2 k a2 o2 E2 (Hin _ _ _ _ P2) A1).
    + exfalso. exact (Hpres k a1 o1 E1 (Hin _ _ _ _ P1) A2).
    + split; [cbn; split; discriminate|]. split.
      * intros k'. rewrite (hits_perm k' _ _ Q1), (hits_perm k' _ _ Q2). specialize (HL k').
        rewrite (hits_perm k' _ _ P1), (hits_perm k' _ _ P2) in HL. rewrite !hits_cons in *. exact HL.
      * rewrite (Hlen _ _ _ Q1), (Hlen _ _ _ Q2). rewrite (Hlen _ _ _ P1), (Hlen _ _ _ P2) in Hn. exact Hn.
  - destruct S1 as [(-> & A1 & P1)|(a1 & o1 & r1 & -> & E1 & P1 & Q1)], S2 as [(-> & A2 & P2)|(a2 & o2 & r2 & -> & E2 & P2 & Q2)].
    + split; [cbn; tauto|]. split.
      * intros k'. now rewrite (hits_perm k' _ _ P1), (hits_perm k' _ _ P2).
      * now rewrite (Hlen _ _ _ P1), (Hlen _ _ _ P2).
    + exfalso. exact (Hpres2 k a2 o2 E2 (Hin _ _ _ _ P2) A1).
    + exfalso. exact (Hpres k a1 o1 E1 (Hin _ _ _ _ P1) A2).
    + split; [cbn; split; discriminate|]. split.
      * intros k'. rewrite (hits_perm k' _ _ Q1), (hits_perm k' _ _ Q2). specialize (HL k').
        rewrite (hits_perm k' _ _ P1), (hits_perm k' _ _ P2), !hits_cons in HL. cbn [fst] in HL.
        rewrite (eqb_same a1 k E1), (eqb_same a2 k E2) in HL. lia.
      * rewrite (Hlen _ _ _ Q1), (Hlen _ _ _ Q2). rewrite (Hlen _ _ _ P1), (Hlen _ _ _ P2) in Hn. cbn in Hn. lia.
  - destruct S1 as [P1 C1], S2 as [P2 C2]. split.
    + destruct C1 as [(-> & A1)|(a1 & o1 & -> & E1 & I1)], C2 as [(-> & A2)|(a2 & o2 & -> & E2 & I2)].
      * cbn; tauto.
      * exfalso. exact (Hpres2 k a2 o2 E2 I2 A1).
      * exfalso. exact (Hpres k a1 o1 E1 I1 A2).
      * cbn; split; discriminate.
    + split; [|now rewrite (Hlen _ _ _ P1), (Hlen _ _ _ P2)].
      intros k'. now rewrite (hits_perm k' _ _ P1), (hits_perm k' _ _ P2).
  - destruct S1 as [(-> & A1 & P1)|(a1 & o1 & r1 & -> & E1 & P1 & Q1)], S2 as [(-> & A2 & P2)|(a2 & o2 & r2 & -> & E2 & P2 & Q2)].
    + split; [cbn; tauto|]. split.
      * intros k'. now rewrite (hits_perm k' _ _ P1), (hits_perm k' _ _ P2).
      * now rewrite (Hlen _ _ _ P1), (Hlen _ _ _ P2).
    + exfalso. exact (Hpres2 k a2 o2 E2 (Hin _ _ _ _ P2) A1).
    + exfalso. exact (Hpres k a1 o1 E1 (Hin _ _ _ _ P1) A2).
    + split; [cbn; split; discriminate|]. split.
      * intros k'. rewrite (hits_perm k' _ _ Q1), (hits_perm k' _ _ Q2). specialize (HL k').
        rewrite (hits_perm k' _ _ P1), (hits_perm k' _ _ P2) in HL. rewrite !hits_cons in *. exact HL.
      * rewrite (Hlen _ _ _ Q1), (Hlen _ _ _ Q2). rewrite (Hlen _ _ _ P1), (Hlen _ _ _ P2) in Hn. exact Hn.
  - destruct S1 as [-> P1], S2 as [-> P2]. split; [cbn; now rewrite Hn|]. split.
    + intros k'. now rewrite (hits_perm k' _ _ P1), (hits_perm k' _ _ P2).
    + now rewrite (Hlen _ _ _ P1), (Hlen _ _ _ P2).
  - destruct S1 as [-> P1], S2 as [-> P2]. split; [cbn; now rewrite Hn|]. split.
    + intros k'. now rewrite (hits_perm k' _ _ P1), (hits_perm k' _ _ P2).
    + now rewrite (Hlen _ _ _ P1), (Hlen _ _ _ P2).
  - destruct S1 as [-> P1], S2 as [-> P2]. split; [reflexivity|]. split.
    + intros k'. now rewrite (hits_perm k' _ _ P1), (hits_perm k' _ _ P2).
    + now rewrite (Hlen _ _ _ P1), (Hlen _ _ _ P2).
Qed.

(** *** Without [insert]: unique keys *)
Definition few (l : list entry) : Prop := forall k, hits k l <= 1.

Lemma few_only l k a v a' v' rest rest' : few l -> eqb a k = true -> eqb a' k = true ->
  Permutation l ((a, v) :: rest) -> Permutation l ((a', v') :: rest') -> a = a' /\ v = v' /\ Permutation rest rest'.
Proof.
  intros Hf Ha Ha' P P'. assert (Hin : In (a', v') ((a, v) :: rest)) by (rewrite <- P, P'; now left).
  destruct Hin as [[= <- <-]|Hin].
  - split; [reflexivity|]. split; [reflexivity|]. apply (Permutation_cons_inv (a := (a, v))). now rewrite <- P, P'.
  - exfalso. specialize (Hf k). rewrite (hits_perm k _ _ P), hits_cons in Hf. cbn [fst] in Hf. rewrite Ha in Hf.
    assert (H := present_hits rest k a' v' Ha' Hin). lia.
Qed.
Lemma few_perm l l' : Permutation l l' -> few l -> few l'.
Proof. intros P H k. now rewrite <- (hits_perm k _ _ P). Qed.
Lemma few_absent l k v : few l -> absent l k -> few ((k, v) :: l).
Proof.
  intros H A k'. rewrite hits_cons. cbn. destruct (eqb k k') eqn:E; [|apply H].
  assert (hits k' l = 0); [|lia]. apply absent_hits. intros kv Hin. specialize (A kv Hin).
  destruct (eqb (fst kv) k') eqn:E2; [|reflexivity]. apply (keq_sym _ EL) in E. rewrite (keq_trans _ EL _ _ _ E2 E) in A. discriminate.
Qed.
Lemma few_swap a v w rest : few ((a, v) :: rest) -> few ((a, w) :: rest).
Proof. intros H k. specialize (H k). rewrite hits_cons in *. exact H. Qed.
Lemma few_tail a rest : few (a :: rest) -> few rest.
Proof. intros H k. specialize (H k). rewrite hits_cons in H. lia. Qed.


Lemma step_same l1 l2 o x1 x2 l1' l2' : not_insert o ->
  few l1 -> Permutation l1 l2 -> abs_step l1 o x1 l1' -> abs_step l2 o x2 l2' ->
  x1 = x2 /\ Permutation l1' l2' /\ few l1'.
Proof.
  intros No Hf HP S1 S2.
  assert (Habs : forall k, absent l1 k <-> absent l2 k) by (intros k; now rewrite !absent_hits, (hits_perm k _ _ HP)).
  assert (Hin : forall (l : list entry) a v rest, Permutation l ((a, v) :: rest) -> In (a, v) l)
    by (intros l a v rest H; rewrite H; now left).
  assert (Hno : forall l k a v, eqb a k = true -> In (a, v) l -> absent l k -> False).
  { intros l k a v Ha Hi H. specialize (H _ Hi). cbn in H. congruence. }
  destruct o as [k v|k v|k|k|k v| | |]; cbn [abs_step] in S1, S2; [contradiction| | | | | | |].
  - destruct S1 as [(-> & A1 & P1)|(a1 & o1 & r1 & -> & E1 & P1 & Q1)], S2 as [(-> & A2 & P2)|(a2 & o2 & r2 & -> & E2 & P2 & Q2)].
    + split; [reflexivity|]. split; [now rewrite P1, P2, HP|]. apply (few_perm _ _ (Permutation_sym P1)). now apply few_absent.
    + exfalso. apply Habs in A1. exact (Hno l2 k a2 o2 E2 (Hin _ _ _ _ P2) A1).
    + exfalso. apply Habs in A2. exact (Hno l1 k a1 o1 E1 (Hin _ _ _ _ P1) A2).
    + destruct (few_only l1 k a1 o1 a2 o2 r1 r2 Hf E1 E2 P1) as (<- & <- & Hr); [now rewrite HP|].
      split; [reflexivity|]. split; [now rewrite Q1, Q2, Hr|]. apply (few_perm _ _ (Permutation_sym Q1)).
      apply (few_swap a1 o1). now apply (few_perm l1).
  - destruct S1 as [(-> & A1 & P1)|(a1 & o1 & r1 & -> & E1 & P1 & Q1)], S2 as [(-> & A2 & P2)|(a2 & o2 & r2 & -> & E2 & P2 & Q2)].
    + split; [reflexivity|]. split; [now rewrite P1, P2, HP|]. now apply (few_perm _ _ (Permutation_sym P1)).
    + exfalso. apply Habs in A1. exact (Hno l2 k a2 o2 E2 (Hin _ _ _ _ P2) A1).
    + exfalso. apply Habs in A2. exact (Hno l1 k a1 o1 E1 (Hin _ _ _ _ P1) A2).
    + destruct (few_only l1 k a1 o1 a2 o2 r1 r2 Hf E1 E2 P1) as (<- & <- & Hr); [now rewrite HP|].
      split; [reflexivity|]. split; [now rewrite Q1, Q2, Hr|]. apply (few_perm _ _ (Permutation_sym Q1)).
      apply (few_tail (a1, o1)). now apply (few_perm l1).
  - destruct S1 as [P1 C1], S2 as [P2 C2].
    split; [|split; [now rewrite P1, P2, HP|now apply (few_perm _ _ (Permutation_sym P1))]].
    destruct C1 as [(-> & A1)|(a1 & o1 & -> & E1 & I1)], C2 as [(-> & A2)|(a2 & o2 & -> & E2 & I2)].
    + reflexivity.
    + exfalso. apply Habs in A1. exact (Hno l2 k a2 o2 E2 I2 A1).
    + exfalso. apply Habs in A2. exact (Hno l1 k a1 o1 E1 I1 A2).
    + rewrite <- HP in I2. apply in_split in I1 as (p1 & s1 & ->). apply in_split in I2 as (p2 & s2 & I2).
      destruct (few_only _ k a1 o1 a2 o2 (p1 ++ s1) (p2 ++ s2) Hf E1 E2) as (<- & <- & Hr); [perm|rewrite I2; perm|reflexivity].
  - destruct S1 as [(-> & A1 & P1)|(a1 & o1 & r1 & -> & E1 & P1 & Q1)], S2 as [(-> & A2 & P2)|(a2 & o2 & r2 & -> & E2 & P2 & Q2)].
    + split; [reflexivity|]. split; [now rewrite P1, P2, HP|]. now apply (few_perm _ _ (Permutation_sym P1)).
    + exfalso. apply Habs in A1. exact (Hno l2 k a2 o2 E2 (Hin _ _ _ _ P2) A1).
    + exfalso. apply Habs in A2. exact (Hno l1 k a1 o1 E1 (Hin _ _ _ _ P1) A2).
    + destruct (few_only l1 k a1 o1 a2 o2 r1 r2 Hf E1 E2 P1) as (<- & <- & Hr); [now rewrite HP|].
      split; [reflexivity|]. split; [now rewrite Q1, Q2, Hr|]. apply (few_perm _ _ (Permutation_sym Q1)).
      apply (few_swap a1 o1). now apply (few_perm l1).
  - destruct S1 as [-> P1], S2 as [-> P2]. split; [now rewrite (Permutation_length HP)|].
    split; [now rewrite P1, P2, HP|now apply (few_perm _ _ (Permutation_sym P1))].
  - destruct S1 as [-> P1], S2 as [-> P2]. split; [now rewrite (Permutation_length HP)|].
    split; [now rewrite P1, P2, HP|now apply (few_perm _ _ (Permutation_sym P1))].
  - destruct S1 as [-> P1], S2 as [-> P2]. split; [reflexivity|].
    split; [now rewrite P1, P2, HP|now apply (few_perm _ _ (Permutation_sym P1))].
Qed.
End Abs.

(** *** A tree takes such steps *)
Section Refine.
Context {B K V : Type} (P : Params B K) (cfg : config) (ok : K -> Prop) (incl : B -> B -> Prop).
Context (BL : bounds_laws (bops P) incl) (LL : lookup_laws P (self_borrow P) incl ok).

Lemma step_abs (t t' : rtree B K V) o x : reachable P cfg ok t -> ok_op ok o -> fits cfg o ->
  step P cfg t o = Ok (x, t') -> abs_step (key_eq P) (contents t) o x (contents t').
Proof.
  intros Hr Hok Hfit E. destruct o as [k v|k v|k|k|k v| | |]; cbn [step abs_step ok_op op_key fits] in *.
  - destruct (rtree_insert P cfg t k v) as [t1| | |] eqn:E1; cbn in E; try discriminate. injection E as <- <-.
    split; [reflexivity|]. exact (insert_contents P cfg ok t t1 k v Hr Hok E1).
  - destruct (rtree_insert_unique P cfg t k v) as [[p t1]| | |] eqn:E1; cbn in E; try discriminate. injection E as <- <-.
    apply (insert_unique_spec P cfg ok incl BL LL) in E1; auto. destruct p as [old|].
    + destruct E1 as (_ & l1 & a & l2 & Ec & Ha & Hl1 & Ec'). right. exists a, old, (l1 ++ l2).
      split; [reflexivity|]. split; [exact Ha|]. rewrite Ec, Ec'. split; perm.
    + left. destruct E1 as [Hn Hp]. auto.
  - destruct (rtree_remove P cfg (self_borrow P) t k) as [[p t1]| | |] eqn:E1; cbn in E; try discriminate. injection E as <- <-.
    apply (remove_spec P cfg ok incl BL (self_borrow P) LL) in E1; auto. cbn in E1. destruct p as [v|].
    + destruct E1 as (a & Ha & Hp). right. exists a, v, (contents t1). auto.
    + destruct E1 as (-> & Hn). left. auto.
  - rewrite (get_find P cfg ok incl BL (self_borrow P) LL t k Hr) in E. cbn in E. injection E as <- <-.
    split; [reflexivity|]. destruct (find _ (contents t)) as [[a old]|] eqn:Ef; cbn [option_map snd].
    + right. apply find_some in Ef as [H1 H2]. exists a, old. auto.
    + left. split; [reflexivity|]. exact (find_none _ _ Ef).
  - destruct (get_mut_spec P cfg ok incl BL (self_borrow P) LL t k Hr) as (r & E1 & Hs). rewrite E1 in E. cbn in E.
    destruct r as [[old put]|]; injection E as <- <-; cbn in Hs.
    + destruct Hs as (_ & _ & l1 & a & l2 & Ec & Ha & Hl1 & Ec'). right. exists a, old, (l1 ++ l2).
      split; [reflexivity|]. split; [exact Ha|]. rewrite Ec, Ec'. split; perm.
    + left. auto.
  - rewrite (len_spec P cfg ok t Hr) in E. cbn in E. injection E as <- <-. auto.
  - destruct (is_empty_spec P cfg ok t Hfit Hr) as (b & E1 & H). rewrite E1 in E. cbn in E. injection E as <- <-.
    split; [|reflexivity]. f_equal. apply eq_true_iff_eq. rewrite H, Nat.eqb_eq.
    destruct (contents t); cbn; split; congruence.
  - rewrite (clone_spec P cfg ok t Hr) in E. cbn in E. injection E as <- <-. auto.
Qed.
End Refine.

Section Two.
Context {B1 B2 K V : Type} (P1 : Params B1 K) (P2 : Params B2 K) (cfg1 cfg2 : config) (ok : K -> Prop)
  (incl1 : B1 -> B1 -> Prop) (incl2 : B2 -> B2 -> Prop).
Context (BL1 : bounds_laws (bops P1) incl1) (LL1 : lookup_laws P1 (self_borrow P1) incl1 ok)
  (BL2 : bounds_laws (bops P2) incl2) (LL2 : lookup_laws P2 (self_borrow P2) incl2 ok)
  (EL : key_eq_laws (key_eq P1)) (Same : forall a b, key_eq P2 a b = key_eq P1 a b).

Lemma abs_step_ext eqb eqb' (l l' : list (K * V)) o x : (forall a b, eqb a b = eqb' a b) ->
  abs_step eqb l o x l' -> abs_step eqb' l o x l'.
Proof.
  intros H. assert (HA : forall k, absent eqb l k -> absent eqb' l k) by (intros k Ha kv Hin; rewrite <- H; now apply Ha).
  destruct o; cbn [abs_step]; auto.
  - intros [(H1 & H2 & H3)|(a & old & r & H1 & H2 & H3 & H4)]; [left|right; exists a, old, r; rewrite <- H]; auto.
  - intros [(H1 & H2 & H3)|(a & old & r & H1 & H2 & H3 & H4)]; [left|right; exists a, old, r; rewrite <- H]; auto.
  - intros (H0 & [(H1 & H2)|(a & old & H1 & H2 & H3)]); (split; [exact H0|]); [left|right; exists a, old; rewrite <- H]; auto.
  - intros [(H1 & H2 & H3)|(a & old & r & H1 & H2 & H3 & H4)]; [left|right; exists a, old, r; rewrite <- H]; auto.
Qed.

Lemma runs_same os : forall (t1 t1' : rtree B1 K V) (t2 t2' : rtree B2 K V) xs1 xs2,
  Forall not_insert os -> Forall (ok_op ok) os -> Forall (fits cfg1) os -> Forall (fits cfg2) os ->
  reachable P1 cfg1 ok t1 -> reachable P2 cfg2 ok t2 ->
  few (key_eq P1) (contents t1) -> Permutation (contents t1) (contents t2) ->
  run P1 cfg1 t1 os = Ok (xs1, t1') -> run P2 cfg2 t2 os = Ok (xs2, t2') ->
  xs1 = xs2 /\ Permutation (contents t1') (contents t2').
Proof.
  induction os as [|o os IH]; intros t1 t1' t2 t2' xs1 xs2 Hn Hk Hf1 Hf2 R1 R2 Hfew HP; cbn [run].
  - intros [= <- <-] [= <- <-]. auto.
  - inversion Hn as [|? ? Hn1 Hn']; subst. inversion Hk as [|? ? Hk1 Hk']; subst.
    inversion Hf1 as [|? ? Hf11 Hf1']; subst. inversion Hf2 as [|? ? Hf21 Hf2']; subst.
    destruct (step P1 cfg1 t1 o) as [[x1 u1]| | |] eqn:E1; cbn [bind]; try discriminate.
    destruct (run P1 cfg1 u1 os) as [[ys1 w1]| | |] eqn:F1; cbn [bind]; try discriminate. intros [= <- <-].
    destruct (step P2 cfg2 t2 o) as [[x2 u2]| | |] eqn:E2; cbn [bind]; try discriminate.
    destruct (run P2 cfg2 u2 os) as [[ys2 w2]| | |] eqn:F2; cbn [bind]; try discriminate. intros [= <- <-].
    assert (A1 := step_abs P1 cfg1 ok incl1 BL1 LL1 t1 u1 o x1 R1 Hk1 Hf11 E1).
    assert (A2 := step_abs P2 cfg2 ok incl2 BL2 LL2 t2 u2 o x2 R2 Hk1 Hf21 E2).
    apply (abs_step_ext _ (key_eq P1) _ _ _ _ Same) in A2.
    destruct (step_same (key_eq P1) EL _ _ o x1 x2 _ _ Hn1 Hfew HP A1 A2) as (<- & HP' & Hfew').
    destruct (IH u1 w1 u2 w2 ys1 ys2) as [<- H]; auto.
    + exact (step_reachable P1 cfg1 ok t1 u1 o x1 R1 Hk1 E1).
    + exact (step_reachable P2 cfg2 ok t2 u2 o x1 R2 Hk1 E2).
Qed.

Lemma runs_like os : forall (t1 t1' : rtree B1 K V) (t2 t2' : rtree B2 K V) xs1 xs2,
  Forall (ok_op ok) os -> Forall (fits cfg1) os -> Forall (fits cfg2) os ->
  reachable P1 cfg1 ok t1 -> reachable P2 cfg2 ok t2 ->
  like (key_eq P1) (contents t1) (contents t2) -> length (contents t1) = length (contents t2) ->
  run P1 cfg1 t1 os = Ok (xs1, t1') -> run P2 cfg2 t2 os = Ok (xs2, t2') ->
  Forall2 alike xs1 xs2 /\ like (key_eq P1) (contents t1') (contents t2') /\ length (contents t1') = length (contents t2').
Proof.
  induction os as [|o os IH]; intros t1 t1' t2 t2' xs1 xs2 Hk Hf1 Hf2 R1 R2 HL Hn; cbn [run].
  - intros [= <- <-] [= <- <-]. auto.
  - inversion Hk as [|? ? Hk1 Hk']; subst.
    inversion Hf1 as [|? ? Hf11 Hf1']; subst. inversion Hf2 as [|? ? Hf21 Hf2']; subst.
    destruct (step P1 cfg1 t1 o) as [[x1 u1]| | |] eqn:E1; cbn [bind]; try discriminate.
    destruct (run P1 cfg1 u1 os) as [[ys1 w1]| | |] eqn:F1; cbn [bind]; try discriminate. intros [= <- <-].
    destruct (step P2 cfg2 t2 o) as [[x2 u2]| | |] eqn:E2; cbn [bind]; try discriminate.
    destruct (run P2 cfg2 u2 os) as [[ys2 w2]| | |] eqn:F2; cbn [bind]; try discriminate. intros [= <- <-].
    assert (A1 := step_abs P1 cfg1 ok incl1 BL1 LL1 t1 u1 o x1 R1 Hk1 Hf11 E1).
    assert (A2 := step_abs P2 cfg2 ok incl2 BL2 LL2 t2 u2 o x2 R2 Hk1 Hf21 E2).
    apply (abs_step_ext _ (key_eq P1) _ _ _ _ Same) in A2.
    destruct (step_like (key_eq P1) EL _ _ o x1 x2 _ _ HL Hn A1 A2) as (Hx & HL' & Hn').
    destruct (IH u1 w1 u2 w2 ys1 ys2) as (H1 & H2 & H3); auto.
    + exact (step_reachable P1 cfg1 ok t1 u1 o x1 R1 Hk1 E1).
    + exact (step_reachable P2 cfg2 ok t2 u2 o x2 R2 Hk1 E2).
Qed.

Lemma both_run_same os : supported cfg1 -> supported cfg2 ->
  Forall not_insert os -> Forall (ok_op ok) os -> Forall (fits cfg1) os -> Forall (fits cfg2) os ->
  exists xs (t1 : rtree B1 K V) (t2 : rtree B2 K V), run P1 cfg1 (rtree_new P1) os = Ok (xs, t1)
    /\ run P2 cfg2 (rtree_new P2) os = Ok (xs, t2) /\ Permutation (contents t1) (contents t2).
Proof.
  intros S1 S2 Hn Hk H1 H2.
  destruct (run_no_panic P1 cfg1 os S1) as [[xs1 t1] E1]. destruct (run_no_panic P2 cfg2 os S2) as [[xs2 t2] E2].
  destruct (runs_same os _ _ _ _ _ _ Hn Hk H1 H2 (r_new _ _ _) (r_new _ _ _) (fun k => Nat.le_0_l 1) (perm_nil _) E1 E2) as [<- HP].
  exists xs1, t1, t2. auto.
Qed.

Lemma both_run_like os : supported cfg1 -> supported cfg2 ->
  Forall (ok_op ok) os -> Forall (fits cfg1) os -> Forall (fits cfg2) os ->
  exists xs1 xs2 (t1 : rtree B1 K V) (t2 : rtree B2 K V), run P1 cfg1 (rtree_new P1) os = Ok (xs1, t1)
    /\ run P2 cfg2 (rtree_new P2) os = Ok (xs2, t2) /\ Forall2 alike xs1 xs2
    /\ length (contents t1) = length (contents t2)
    /\ forall k, hits (key_eq P1) k (contents t1) = hits (key_eq P1) k (contents t2).
Proof.
  intros S1 S2 Hk H1 H2.
  destruct (run_no_panic P1 cfg1 os S1) as [[xs1 t1] E1]. destruct (run_no_panic P2 cfg2 os S2) as [[xs2 t2] E2].
  destruct (runs_like os _ _ _ _ _ _ Hk H1 H2 (r_new _ _ _) (r_new _ _ _) (fun k => eq_refl) eq_refl E1 E2) as (HA & HL & Hn).
  exists xs1, xs2, t1, t2. repeat split; auto.
Qed.
End Two.
