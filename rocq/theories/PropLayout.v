(** Property C54: memory is given back with the layout it was requested with. *)
From Verif Require Export LayoutModel Util.

(** *** Rounding up *)

(** [round_up x a] is the least multiple of [a] that is not below [x]. *)
Lemma round_up_spec x a : 0 < a ->
  (exists k, round_up x a = k * a) /\ x <= round_up x a /\ forall k, x <= k * a -> round_up x a <= k * a.
Proof.
  intros Ha. unfold round_up.
  assert (Hd := Nat.div_mod (x + a - 1) a ltac:(lia)). assert (Hm := Nat.mod_upper_bound (x + a - 1) a ltac:(lia)).
  set (q := (x + a - 1) / a) in *. set (r := (x + a - 1) mod a) in *.
  split; [now exists q|]. split; [nia|]. intros k Hk. apply Nat.mul_le_mono_r. nia.
Qed.

Lemma padding_round_up l a : 0 < a -> l_size l + padding_needed_for l a = round_up (l_size l) a.
Proof.
  intros Ha. unfold padding_needed_for. set (s := l_size l). destruct (round_up_spec s a Ha) as ([k Hk] & H1 & H2).
  assert (Hd := Nat.div_mod s a ltac:(lia)). assert (Hm := Nat.mod_upper_bound s a ltac:(lia)).
  set (q := s / a) in *. set (r := s mod a) in *.
  destruct (Nat.eq_dec r 0) as [E|E].
  - rewrite E, Nat.sub_0_r, Nat.mod_same by lia.
    assert (round_up s a <= q * a) by (apply H2; nia). nia.
  - rewrite Nat.mod_small by lia.
    assert (round_up s a <= (q + 1) * a) by (apply H2; nia).
    assert (s <= k * a) by lia. assert (q < k) by nia. nia.
Qed.

Lemma Ok_inj {A} (a b : A) : Ok a = Ok b -> a = b. Proof. congruence. Qed.

(** *** The layout of a shared box *)

(** What [box_layout] asks for is what the compiler says the box occupies. *)
Lemma box_layout_for_value esz eal n l l' : 0 < eal ->
  array_layout esz eal n = Ok l -> box_layout l = Ok l' -> l' = for_value_layout esz eal n.
Proof.
  intros He. unfold array_layout, box_layout, extend, from_size_align, for_value_layout.
  destruct (_ <=? _)%Z; [|discriminate]. intros E; apply Ok_inj in E; subst l. cbn [l_size l_align].
  destruct (_ <=? _)%Z; [|discriminate]. cbn [bind]. intros E; apply Ok_inj in E; subst l'. unfold pad_to_align. cbn [l_align].
  rewrite padding_round_up by lia. cbn [l_size l_align].
  assert (H := padding_round_up {| l_size := 1; l_align := 1 |} eal He). cbn [l_size] in H. now rewrite H.
Qed.

(** *** The invariant: distinct handles own distinct live blocks of the right layout *)
Definition hptr (x : handle) : option nat :=
  match x with HVec _ _ _ p | HBox _ _ _ p => Some p | HStack _ _ _ p => p end.
Definition hlay (x : handle) : layout :=
  match x with
  | HVec esz eal cap _ => {| l_size := esz * cap; l_align := eal |}
  | HBox esz eal n _ => for_value_layout esz eal n
  | HStack esz eal n _ => {| l_size := esz * n; l_align := eal |}
  end.
Definition hfits (esz eal n : nat) : Prop := 0 < eal /\ exists l, array_layout esz eal n = Ok l.
Definition hgood (x : handle) : Prop :=
  match x with
  | HVec esz eal cap _ => hfits esz eal cap
  | HBox esz eal n _ => hfits esz eal n /\ exists l l', array_layout esz eal n = Ok l /\ box_layout l = Ok l'
  | HStack esz eal n p => p = None <-> esz * n = 0
  end.
Definition hlive (x : option handle) : option nat := match x with Some x => hptr x | None => None end.

Definition linv (hs : list (option handle)) (h : lheap) : Prop :=
  (forall i x, nth_error hs i = Some (Some x) -> hgood x /\ forall p, hptr x = Some p -> nth_error h p = Some (LLive (hlay x))) /\
  (forall i j x y p, nth_error hs i = Some (Some x) -> nth_error hs j = Some (Some y) -> hptr x = Some p -> hptr y = Some p -> i = j) /\
  (forall p l, nth_error h p = Some (LLive l) -> exists i x, nth_error hs i = Some (Some x) /\ hptr x = Some p).

Lemma nth_error_snoc {A} (l : list A) x i y : nth_error (l ++ [x]) i = Some y ->
  (i < length l /\ nth_error l i = Some y) \/ (i = length l /\ y = x).
Proof.
  intros H. destruct (Nat.lt_ge_cases i (length l)).
  - left. split; [lia|]. now rewrite nth_error_app1 in H.
  - right. rewrite nth_error_app2 in H by lia. destruct (i - length l) as [|k] eqn:E; cbn in H; [|destruct k; discriminate].
    injection H as <-. split; [lia|reflexivity].
Qed.

Lemma linv_new hs h x l : linv hs h -> hgood x -> hptr x = Some (length h) -> hlay x = l ->
  linv (hs ++ [Some x]) (h ++ [LLive l]).
Proof.
  intros (H1 & H2 & H3) Hg Hp Hl. split; [|split].
  - intros i y Hy. apply nth_error_snoc in Hy as [[Hi Hy]|[-> E]].
    + destruct (H1 i y Hy) as [Hgy Hly]. split; [exact Hgy|]. intros p Hpy. specialize (Hly p Hpy).
      rewrite nth_error_app1; [exact Hly|]. apply nth_error_Some. congruence.
    + injection E as ->. split; [exact Hg|]. intros p Hpy. rewrite Hp in Hpy. injection Hpy as <-.
      rewrite nth_error_app2, Nat.sub_diag by lia. cbn. now subst l.
  - intros i j y z p Hy Hz Hpy Hpz. apply nth_error_snoc in Hy as [[Hi Hy]|[-> Ey]]; apply nth_error_snoc in Hz as [[Hj Hz]|[-> Ez]].
    + eapply H2; eauto.
    + injection Ez as ->. rewrite Hp in Hpz. injection Hpz as <-. destruct (H1 i y Hy) as [_ Hly]. specialize (Hly _ Hpy).
      assert (length h < length h) by (apply nth_error_Some; congruence). lia.
    + injection Ey as ->. rewrite Hp in Hpy. injection Hpy as <-. destruct (H1 j z Hz) as [_ Hly]. specialize (Hly _ Hpz).
      assert (length h < length h) by (apply nth_error_Some; congruence). lia.
    + reflexivity.
  - intros p l' Hl'. apply nth_error_snoc in Hl' as [[Hi Hy]|[-> E]].
    + destruct (H3 p l' Hy) as (i & y & Hy' & Hpy). exists i, y. split; [|exact Hpy].
      rewrite nth_error_app1; [exact Hy'|]. apply nth_error_Some. congruence.
    + exists (length hs), x. split; [|exact Hp]. now rewrite nth_error_app2, Nat.sub_diag by lia.
Qed.

Lemma linv_new_none hs h x : linv hs h -> hgood x -> hptr x = None -> linv (hs ++ [Some x]) h.
Proof.
  intros (H1 & H2 & H3) Hg Hp. split; [|split].
  - intros i y Hy. apply nth_error_snoc in Hy as [[Hi Hy]|[-> E]]; [eauto|]. injection E as ->. split; [exact Hg|]. intros p Hpy. congruence.
  - intros i j y z p Hy Hz Hpy Hpz. apply nth_error_snoc in Hy as [[Hi Hy]|[-> Ey]]; apply nth_error_snoc in Hz as [[Hj Hz]|[-> Ez]];
      [eauto|injection Ez as ->|injection Ey as ->|reflexivity]; congruence.
  - intros p l' Hl'. destruct (H3 p l' Hl') as (i & y & Hy' & Hpy). exists i, y. split; [|exact Hpy].
    rewrite nth_error_app1; [exact Hy'|]. apply nth_error_Some. congruence.
Qed.

Lemma nth_error_set {A} i (x : A) l j : nth_error (set_nth i x l) j = if (j =? i) && (i <? length l) then Some x else nth_error l j.
Proof.
  revert i j. induction l as [|y l IH]; intros [|i] [|j]; cbn; try reflexivity.
  - now rewrite andb_false_r.
  - rewrite IH. reflexivity.
Qed.

Lemma linv_drop hs h i x : linv hs h -> nth_error hs i = Some (Some x) ->
  linv (set_nth i None hs) (match hptr x with Some p => set_nth p LFreed h | None => h end).
Proof.
  intros (H1 & H2 & H3) Hx.
  assert (Hi : i < length hs) by (apply nth_error_Some; congruence).
  assert (Hs : forall j y, nth_error (set_nth i None hs) j = Some (Some y) -> j <> i /\ nth_error hs j = Some (Some y)).
  { intros j y Hj. rewrite nth_error_set in Hj. destruct (Nat.eqb_spec j i) as [->|Hne]; cbn [andb] in Hj; [|now split].
    rewrite (proj2 (Nat.ltb_lt i (length hs)) Hi) in Hj. discriminate. }
  split; [|split].
  - intros j y Hy. apply Hs in Hy as [Hne Hy]. destruct (H1 j y Hy) as [Hg Hl]. split; [exact Hg|]. intros p Hp.
    specialize (Hl p Hp). destruct (hptr x) as [q|] eqn:Eq; [|exact Hl]. rewrite nth_error_set.
    destruct (Nat.eqb_spec p q) as [->|Hpq]; cbn [andb]; [|exact Hl]. exfalso. apply Hne. eapply H2; eauto.
  - intros j k y z p Hy Hz. apply Hs in Hy as [_ Hy]. apply Hs in Hz as [_ Hz]. eauto.
  - intros p l Hl.
    assert (Hl0 : nth_error h p = Some (LLive l) /\ (hptr x <> Some p)).
    { destruct (hptr x) as [q|] eqn:Eq; [|split; [exact Hl|congruence]]. rewrite nth_error_set in Hl.
      destruct (Nat.eqb_spec p q) as [->|Hpq]; cbn [andb] in Hl.
      - destruct (q <? length h) eqn:E; [discriminate|]. apply Nat.ltb_ge in E. apply nth_error_None in E. congruence.
      - split; [exact Hl|congruence]. }
    destruct Hl0 as [Hl0 Hne]. destruct (H3 p l Hl0) as (j & y & Hy & Hp). exists j, y. split; [|exact Hp].
    rewrite nth_error_set. destruct (Nat.eqb_spec j i) as [->|Hji]; cbn [andb]; [congruence|exact Hy].
Qed.

Lemma ldealloc_ok p l h : nth_error h p = Some (LLive l) -> ldealloc p l h = Ok (set_nth p LFreed h).
Proof. intros E. unfold ldealloc, layout_eqb. now rewrite E, !Nat.eqb_refl. Qed.

(** ** C54 *)

(** Element types of positive alignment; node vectors of at least one byte (C46); and [Vec::with_capacity] reserves exactly
    what it was asked for. *)
Definition exact_op (o : lop) : Prop :=
  match o with
  | LNewVec esz eal cap => 0 < eal /\ 0 < esz * cap
  | LNewBox esz eal n => 0 < eal
  | LNewStack esz eal n extra => 0 < eal /\ extra = 0
  | LEmptyStack _ _ | LDrop _ _ => True
  end.

(** Something too large for the address space was asked for. *)
Definition too_large (o : lop) : Prop :=
  match o with
  | LNewVec esz eal n | LNewBox esz eal n => (2 ^ 63 - 3 * Z.of_nat eal <= Z.of_nat (esz * n))%Z
  | LNewStack esz eal n extra => (2 ^ 63 - 3 * Z.of_nat eal <= Z.of_nat (esz * (n + extra)))%Z
  | _ => False
  end.

Lemma array_cases esz eal n : 0 < eal ->
  array_layout esz eal n = Ok {| l_size := esz * n; l_align := eal |} \/
  (array_layout esz eal n = Panic /\ (2 ^ 63 - 3 * Z.of_nat eal <= Z.of_nat (esz * n))%Z).
Proof.
  intros He. unfold array_layout, from_size_align. destruct (Z.leb_spec (Z.of_nat (esz * n)) (2 ^ 63 - 1 - (Z.of_nat eal - 1))); [now left|].
  right. split; [reflexivity|]. lia.
Qed.

Lemma box_cases esz eal n : 0 < eal ->
  (exists l', box_layout {| l_size := esz * n; l_align := eal |} = Ok l') \/
  (box_layout {| l_size := esz * n; l_align := eal |} = Panic /\ (2 ^ 63 - 3 * Z.of_nat eal <= Z.of_nat (esz * n))%Z).
Proof.
  intros He. unfold box_layout, extend, from_size_align. cbn [l_size l_align].
  destruct (Z.leb_spec (Z.of_nat (1 + padding_needed_for {| l_size := 1; l_align := 1 |} eal + esz * n)) (2 ^ 63 - 1 - (Z.of_nat (Nat.max 1 eal) - 1))) as [H|H].
  - left. eexists. reflexivity.
  - right. split; [reflexivity|].
    assert (padding_needed_for {| l_size := 1; l_align := 1 |} eal < eal) by (apply Nat.mod_upper_bound; lia). lia.
Qed.

Lemma for_value_pos esz eal n : 0 < eal -> l_size (for_value_layout esz eal n) <> 0.
Proof.
  intros He. cbn [for_value_layout l_size]. destruct (round_up_spec 1 eal He) as (_ & H1 & _).
  destruct (round_up_spec (round_up 1 eal + esz * n) (Nat.max 1 eal) ltac:(lia)) as (_ & H2 & _). lia.
Qed.

Lemma lstep_inv hs h o : linv hs h -> exact_op o ->
  match lstep hs h o with
  | Ok (hs', h') => linv hs' h'
  | Panic => too_large o
  | _ => False
  end.
Proof.
  intros HI Ho. destruct o as [esz eal cap|esz eal n|esz eal n extra|esz eal|i by_ref]; cbn [lstep exact_op too_large] in *.
  - destruct Ho as [He Hc]. destruct (array_cases esz eal cap He) as [E|[-> H]]; [rewrite E|exact H]. cbn [bind]. unfold lalloc. cbn [l_size].
    rewrite (proj2 (Nat.eqb_neq (esz * cap) 0)) by lia. cbn [bind]. apply linv_new; auto. split; [exact He|eauto].
  - destruct (array_cases esz eal n Ho) as [E|[-> H]]; [rewrite E|exact H]. cbn [bind].
    destruct (box_cases esz eal n Ho) as [[l' E']|[-> H]]; [rewrite E'|exact H]. cbn [bind].
    assert (El := box_layout_for_value _ _ _ _ _ Ho E E'). subst l'.
    unfold lalloc. rewrite (proj2 (Nat.eqb_neq _ 0) (for_value_pos esz eal n Ho)). cbn [bind]. apply linv_new; auto.
    split; [split; [exact Ho|eauto]|eauto].
  - destruct Ho as [He ->]. unfold new_stack. rewrite Nat.add_0_r. destruct (esz * n =? 0) eqn:E0; cbn [bind].
    + apply linv_new_none; auto. cbn. apply Nat.eqb_eq in E0. tauto.
    + destruct (array_cases esz eal n He) as [E|[-> H]]; [rewrite E|exact H]. cbn [bind]. unfold lalloc. cbn [l_size]. rewrite E0. cbn [bind].
      apply linv_new; auto. cbn. apply Nat.eqb_neq in E0. split; [discriminate|tauto].
  - apply linv_new_none; auto. cbn. split; [intros _; apply Nat.mul_0_r|reflexivity].
  - destruct (nth_error hs i) as [[x|]|] eqn:Ex; [|exact HI|exact HI].
    assert (HD := linv_drop hs h i x HI Ex). destruct (proj1 HI i x Ex) as [Hg Hl].
    destruct x as [esz eal cap p|esz eal n p|esz eal n p]; cbn [hptr hlay hgood] in *.
    + destruct Hg as [He [l E]]. destruct (array_cases esz eal cap He) as [E'|[E' _]]; [|congruence]. rewrite E'. cbn [bind].
      rewrite (ldealloc_ok _ _ _ (Hl p eq_refl)). exact HD.
    + destruct Hg as [[He _] (l & l' & E & E')]. rewrite (ldealloc_ok _ _ _ (Hl p eq_refl)).
      destruct by_ref; [exact HD|]. rewrite E. cbn [bind]. rewrite E'. cbn [bind].
      rewrite (box_layout_for_value _ _ _ _ _ He E E'), (ldealloc_ok _ _ _ (Hl p eq_refl)). exact HD.
    + destruct (esz * n =? 0) eqn:E0; cbn [bind].
      * apply Nat.eqb_eq, Hg in E0. subst p. exact HD.
      * destruct p as [p|]; [rewrite (ldealloc_ok _ _ _ (Hl p eq_refl)); exact HD|]. apply Nat.eqb_neq in E0. tauto.
Qed.

Lemma linv_init : linv [] [].
Proof. split; [|split]; intros [|?] *; discriminate. Qed.

(** The full property: whatever is requested and given back, in whatever order, every block is given back with the layout
    it was requested with (otherwise [dealloc] is undefined).  Refuted, by the contract of [Vec::with_capacity], which may
    reserve more than asked: the stack of an iterator is leaked from a vector and given back as a box of its length. *)
Theorem C54_layouts_match_refuted :
  ~ (forall os : list lop,
     (forall esz eal n extra, In (LNewStack esz eal n extra) os -> 0 < eal /\ 0 < esz * n) ->
     (forall esz eal n, In (LNewVec esz eal n) os -> 0 < eal /\ 0 < esz * n) ->
     (forall esz eal n, In (LNewBox esz eal n) os -> 0 < eal) ->
     lrun [] [] os <> UB).
Proof.
  intros H. apply (H [LNewStack 16 8 3 1; LDrop 0 false]).
  - intros esz eal n extra [E|[E|[]]]; [injection E as <- <- <- <-; lia|discriminate].
  - intros esz eal n [E|[E|[]]]; discriminate.
  - intros esz eal n [E|[E|[]]]; discriminate.
  - vm_compute. reflexivity.
Qed.
Print Assumptions C54_layouts_match_refuted.

(** What holds: if [Vec::with_capacity] reserves exactly what it is asked for, then no return is undefined, by whomever a
    shared box is given back; only requests that exceed the address space panic; and what was requested is in use by
    exactly one owner, so that nothing is left when all owners are gone. *)
Theorem C54_layouts_match_partial :
  forall os : list lop, Forall exact_op os ->
  match lrun [] [] os with
  | Ok (hs, h) => (forall i x, nth_error hs i = Some x -> x = None) -> Forall (fun b => b = LFreed) h
  | Panic => Exists too_large os
  | _ => False
  end.
Proof.
  intros os Ho.
  assert (HG : forall os hs h, linv hs h -> Forall exact_op os ->
    match lrun hs h os with
    | Ok (hs', h') => linv hs' h'
    | Panic => Exists too_large os
    | _ => False
    end).
  { clear. induction os as [|o os IH]; intros hs h HI Ho; cbn [lrun]; [exact HI|].
    inversion Ho as [|? ? Ho1 Ho2]; subst. assert (HS := lstep_inv hs h o HI Ho1).
    destruct (lstep hs h o) as [[hs' h']| | |]; cbn [bind]; try contradiction.
    - specialize (IH hs' h' HS Ho2). destruct (lrun hs' h' os) as [[hs2 h2]| | |]; auto.
    - now constructor. }
  specialize (HG os [] [] linv_init Ho). destruct (lrun [] [] os) as [[hs h]| | |]; auto.
  intros Hn. apply Forall_forall. intros b Hb. apply In_nth_error in Hb as [p Hp]. destruct b as [l|]; [|reflexivity].
  destruct (proj2 (proj2 HG) p l Hp) as (i & x & Hx & _). specialize (Hn i _ Hx). discriminate.
Qed.
Print Assumptions C54_layouts_match_partial.

(** The box shared by an allocator and a reference: the value starts at a multiple of its alignment behind the flag, fits,
    and no smaller box would do. *)
Theorem C54_box_fields_partial :
  forall esz eal n l l', 0 < eal -> array_layout esz eal n = Ok l -> box_layout l = Ok l' ->
  exists off, (exists k, off = k * eal) /\ 1 <= off /\ off + esz * n <= l_size l' /\
    (exists k, l_size l' = k * l_align l') /\ l_align l' = eal /\
    (forall off' size, 1 <= off' -> (exists k, off' = k * eal) -> off' + esz * n <= size -> (exists k, size = k * eal) ->
       off <= off' /\ l_size l' <= size).
Proof.
  intros esz eal n l l' He E E'. rewrite (box_layout_for_value _ _ _ _ _ He E E'). cbn [for_value_layout l_size l_align].
  replace (Nat.max 1 eal) with eal by lia.
  destruct (round_up_spec 1 eal He) as (H1 & H2 & H3).
  destruct (round_up_spec (round_up 1 eal + esz * n) eal He) as (H4 & H5 & H6).
  exists (round_up 1 eal). splits; auto. intros off' size Ho [k ->] Hs [m ->]. specialize (H3 k Ho). split; [exact H3|]. apply H6. lia.
Qed.
Print Assumptions C54_box_fields_partial.

(** Two node vectors, a stack of four levels, and a shared box of four entries given back by its reference. *)
Example C54_example :
  let os := [LNewVec 24 8 4; LNewStack 16 8 4 0; LNewBox 16 8 4; LNewVec 16 8 4; LEmptyStack 16 8; LDrop 2 true; LDrop 0 false;
             LDrop 1 false; LDrop 4 false; LDrop 3 false] in
  Forall exact_op os /\
  lrun [] [] os = Ok (repeat None 5, repeat LFreed 4) /\
  box_layout {| l_size := 64; l_align := 8 |} = Ok {| l_size := 72; l_align := 8 |} /\
  box_layout {| l_size := 3; l_align := 1 |} = Ok {| l_size := 4; l_align := 1 |} /\
  for_value_layout 4 4 3 = {| l_size := 16; l_align := 4 |}.
Proof. cbv zeta. splits; [repeat constructor; cbn; lia|vm_compute; reflexivity..]. Qed.
