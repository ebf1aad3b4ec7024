(** Property C79: ordered iteration when the metric's order makes no sense.  Vocabulary: Spec.v, IterSpec.v, FxSpec.v,
    FxSortedSpec.v, HeapSpec.v. *)
From Verif Require Import HeapProof PropSorted Witness.

(** ** C79 ordered iteration with any [Ord] *)

(** Any ranking and any [Ord] of its metric: with state, answering as they like, panicking (every panic being caught).  No
    call of [next] reads a node as an entry or the other way round, or otherwise has undefined behaviour; and the calls
    make up a search that takes what it has found in some order, and that loses nothing unless user code panics. *)
Theorem C79_any_order :
  forall (W B K V M : Type) (P : Params B K) (cfg : config) (H : FxHeap W (ranked B K V M)) (f : FxRanking W B K M)
    (t : rtree B K V) (w : W) (gs : list (W -> W)),
  encapsulated H -> reachable P cfg any_key t ->
  let (a, w0) := fxr_bounds f w (node_bounds (snd t)) in
  match fh_sorted_new H f t w with
  | (None, _) => a = None \/ exists m, a = Some (Some m) /\ fst (fst (fh_push H w0 ((m, fst t + 1), INode (snd t)) (fh_new H))) = true
  | (Some h, w1) =>
    exists ranks os h' w' tr,
      a = Some ranks /\
      session (traced (fh_sorted_next (hlogged H) (rlogged f))) gs h w1 [] = Ok (os, h', w', tr) /\
      length os = length gs /\ yields os = founds tr /\ Forall (r_answered f) tr /\
      (exists lost, any_first True (start ranks t) tr lost) /\
      (lossless H -> unwound os = 0 ->
       exists rest lost, any_first False (start ranks t) (tr ++ rest) lost /\ cut_short rest /\ (In Done os -> rest = []))
  end.
Proof. intros * EH Hr. apply inv_any in Hr as [Hw _]. apply wf_kinded in Hw. now apply heap_search. Qed.
Print Assumptions C79_any_order.

(** What such a search means: no entry is yielded twice, nothing is ranked twice; if all that was asked about got a rank,
    every entry was yielded or lost; and nothing is lost without losses and panics. *)
Theorem C79_each_once :
  forall (B K V M : Type) (lossy : Prop) (a : option M) (t : rtree B K V) tr lost,
  any_first lossy (start a t) tr lost ->
  multi_part (founds tr ++ lost) (contents t) /\ multi_part (asked tr) (questions_below (snd t)) /\
  (a <> None -> all_ranked tr -> Permutation (founds tr ++ lost) (contents t)) /\
  (~ lossy -> panicked_on tr = [] -> lost = []).
Proof.
  intros * HB. splits.
  - apply af_entries in HB. destruct a as [m|]; cbn [start map snd flat_map item_entries] in HB.
    + now rewrite app_nil_r in HB.
    + eapply multi_part_trans; [exact HB|]. eexists. cbn [app]. reflexivity.
  - apply af_questions in HB. destruct a as [m|]; cbn [start map snd flat_map item_questions] in HB.
    + now rewrite app_nil_r in HB.
    + eapply multi_part_trans; [exact HB|]. eexists. cbn [app]. reflexivity.
  - intros Ha Hall. apply (fun HB => af_all _ _ _ _ HB Hall) in HB. destruct a as [m|]; [|congruence].
    cbn [start map snd flat_map item_entries] in HB. now rewrite app_nil_r in HB.
  - intros Hl Hp. apply (af_no_panic (start a t) tr lost); [|exact Hp].
    clear Hp. induction HB as [|fr s e fr' tr lost Hp _ IH|fr m level n fr' tr1 new lost1 tr lost Hp Hr _ IH|fr x fr' tr lost HL]; [constructor| | |contradiction].
    + eapply af_found; eassumption.
    + eapply af_open; [eassumption| |eassumption]. clear -Hr Hl. induction Hr; try (constructor; assumption). contradiction.
Qed.
Print Assumptions C79_each_once.

(** Together: a program that exhausts an ordered iterator with a ranking that ranks everything gets every entry exactly
    once, whatever the order is, if nothing panics. *)
Theorem C79_complete :
  forall (W B K V M : Type) (P : Params B K) (cfg : config) (H : FxHeap W (ranked B K V M)) (f : FxRanking W B K M)
    (t : rtree B K V) (w : W) (gs : list (W -> W)) h w1 os h' w' tr,
  encapsulated H -> lossless H -> reachable P cfg any_key t ->
  (forall w b, fst (fxr_bounds f w b) <> Some None) -> (forall w k, fst (fxr_key f w k) <> Some None) ->
  fh_sorted_new H f t w = (Some h, w1) ->
  session (traced (fh_sorted_next (hlogged H) (rlogged f))) gs h w1 [] = Ok (os, h', w', tr) ->
  unwound os = 0 -> panicked_on tr = [] -> In Done os ->
  Permutation (yields os) (contents t).
Proof.
  intros * EH LL Hr Hb Hk E1 E2 Hu Hp Hd.
  assert (G := C79_any_order W B K V M P cfg H f t w gs EH Hr). assert (Hb0 := Hb w (node_bounds (snd t))).
  destruct (fxr_bounds f w (node_bounds (snd t))) as [a w0]. rewrite E1 in G.
  destruct G as (ranks & os2 & h2 & w2 & tr2 & -> & E3 & _ & Hy & Ha & _ & G). rewrite E2 in E3. injection E3 as <- <- <- <-.
  destruct (G LL Hu) as (rest & lost & HB & _ & Hrest). rewrite (Hrest Hd), app_nil_r in HB.
  destruct (C79_each_once _ _ _ _ _ _ _ _ _ HB) as (_ & _ & G3 & G4).
  rewrite (G4 (fun x => x) Hp), app_nil_r in G3. rewrite Hy. apply G3; [cbn in Hb0; congruence|].
  unfold all_ranked. revert Hp Ha. clear -Hb Hk. induction tr as [|[q x|e] tr IH]; intros Hp Ha; [constructor| |].
  - inversion Ha as [|? ? H1 H2]; subst. destruct x as [[m|]|]; [| |discriminate].
    + constructor; [exact I|]. apply IH; assumption.
    + exfalso. destruct q as [b|k]; cbn in H1; destruct H1 as (w3 & H1); [apply (Hb w3 b)|apply (Hk w3 k)]; now symmetry.
  - inversion Ha; subst. constructor; [exact I|]. apply IH; assumption.
Qed.
Print Assumptions C79_complete.

(** *** A heap without order that panics now and then
    The state counts the calls.  A push goes to the front or to the back; a pop takes the first or the last item.  Every
    [n]th comparison panics: a push keeps the item, a pop loses it. *)
Definition odd_heap (n : nat) (T : Type) : FxHeap nat T := {|
  fheap := list T;
  fh_new := [];
  fh_push := fun w x h => ((w mod n =? n - 1) && negb (length h =? 0), if Nat.even w then x :: h else h ++ [x], S w);
  fh_pop := fun w h => match h with
                       | [] => (Some None, [], w)
                       | x :: r => (if (w mod n =? n - 1) && negb (length r =? 0) then None else Some (Some x), if w mod 3 =? 0 then rev r else r, S w)
                       end;
  fh_items := fun h => h |}.
Lemma odd_heap_encapsulated n T : encapsulated (odd_heap n T).
Proof.
  constructor; cbn -[Nat.modulo].
  - reflexivity.
  - intros w x h p h' w' E. injection E as _ <- _. exists []. rewrite app_nil_r. destruct (Nat.even w); [reflexivity|]. symmetry. apply Permutation_cons_append.
  - intros w [|x r] a h' w' E; [injection E as <- <- _; apply multi_part_refl|].
    destruct ((w mod n =? n - 1) && negb (length r =? 0)), (w mod 3 =? 0); injection E as <- <- _; [exists [x]|exists [x]|exists []|exists []]; rewrite ?app_nil_r.
    + rewrite <- Permutation_cons_append. apply Permutation_cons; [reflexivity|]. symmetry. apply Permutation_rev.
    + rewrite <- Permutation_cons_append. reflexivity.
    + apply Permutation_cons; [reflexivity|]. symmetry. apply Permutation_rev.
    + reflexivity.
Qed.
Lemma odd_heap_lossless n T : lossless (odd_heap n T).
Proof.
  constructor; cbn -[Nat.modulo].
  - intros w x h h' w' E. injection E as _ <- _. destruct (Nat.even w); [reflexivity|]. symmetry. apply Permutation_cons_append.
  - intros w [|y r] x h' w' E; [discriminate|]. destruct ((w mod n =? n - 1) && negb (length r =? 0)); [discriminate|].
    destruct (w mod 3 =? 0); injection E as <- <- _; (apply Permutation_cons; [reflexivity|]); [apply Permutation_rev|reflexivity].
  - intros w [|y r] h' w' E; [reflexivity|]. exfalso. destruct ((w mod n =? n - 1) && negb (length r =? 0)); discriminate.
Qed.

(** The values an ordered iterator over the sample tree yields with a ranking that ranks everything the same, and how the
    calls of [next] ended (0: [None], 1: an entry, 2: a panic). *)
Definition one_rank : FxRanking nat (saabb i32 2) (svec i32 2) nat := {|
  fxr_bounds := fun w _ => (Some (Some 7), w); fxr_key := fun w _ => (Some (Some 7), w) |}.
Definition odd_run (n calls : nat) : list nat * list nat :=
  match fh_sorted_new (odd_heap n _) one_rank sample 0 with
  | (Some h, w) =>
    match session (traced (fh_sorted_next (hlogged (odd_heap n _)) (rlogged one_rank))) (repeat (fun w => w) calls) h w [] with
    | Ok (os, _, _, _) => (map snd (yields os), map (fun o => match o with Done => 0 | Yield _ => 1 | Panicked => 2 end) os)
    | _ => ([], [])
    end
  | _ => ([], [])
  end.

Example C79_example :
  encapsulated (odd_heap 7 (ranked (saabb i32 2) (svec i32 2) nat nat)) /\
  lossless (odd_heap 7 (ranked (saabb i32 2) (svec i32 2) nat nat)) /\
  reachable PP (cfg_of 4 2) any_key sample /\
  (* comparisons panic now and then *)
  odd_run 7 24 = ([15; 2; 21; 10; 27; 23; 29; 22; 11; 17; 6],
                  [2; 1; 1; 2; 2; 1; 1; 2; 1; 1; 2; 1; 1; 1; 2; 1; 1; 0; 0; 0; 0; 0; 0; 0]) /\
  (* they do not, but make no sense *)
  odd_run 1000 24 = ([12; 8; 33; 15; 2; 28; 25; 11; 9; 14; 6; 24; 5; 29; 22; 26; 27; 23; 10; 1; 17; 21],
                     repeat 1 22 ++ [0; 0]) /\
  map snd (contents sample) = [1; 14; 9; 5; 24; 11; 6; 23; 22; 27; 29; 17; 10; 21; 2; 33; 15; 25; 26; 28; 12; 8].
Proof.
  split; [apply odd_heap_encapsulated|]. split; [apply odd_heap_lossless|]. split; [exact sample_reachable|].
  split; [vm_compute; reflexivity|]. split; vm_compute; reflexivity.
Qed.
