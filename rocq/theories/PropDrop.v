(** Ownership: what is handed over is given back or dropped exactly once (C27). *)
From Verif Require Export ForestProof Witness.

(** ** C27 *)

(** Any program that makes trees, calls them, clones them and drops them, in any configuration and with any key and
    bounds operations.  No call is undefined behaviour: no vector is used or deallocated that is not allocated.  If no call
    panicked, then everything that came to exist (a buffer for each vector made, the clones made, the keys and values
    handed over) is either dropped, or was given back to the caller, or is still stored in a tree, each exactly as often as
    it came to exist: nothing leaked, nothing dropped twice, nothing dropped and also given back. *)
Theorem C27_everything_accounted_for :
  forall (B K V : Type) (P : Params B K) (os : list (mop B K V)),
  mrun P [] os mem_init <> UB /\ mrun P [] os mem_init <> OutOfFuel /\
  forall back F s, mrun P [] os mem_init = Ok ((back, F), s) ->
    Permutation (map TBuf (seq 0 (m_next s)) ++ m_cloned s ++ flat_map given os)
                (m_gone s ++ back ++ forest_things F).
Proof.
  intros B K V P os. assert (Hw := mrun_whole P os).
  destruct (prun P [] os) as [[back0 F0]| | |]; try contradiction.
  - destruct Hw as (F & s & E & _ & [_ _ Ho]). rewrite E. split; [discriminate|]. split; [discriminate|].
    intros back F' s' [= <- <- <-]. exact Ho.
  - rewrite Hw. repeat split; discriminate.
Qed.
Print Assumptions C27_everything_accounted_for.

(** Once every tree has been dropped, everything that came to exist has been dropped or given back, exactly once. *)
Theorem C27_all_dropped_exactly_once :
  forall (B K V : Type) (P : Params B K) (os : list (mop B K V)) back F s,
  mrun P [] os mem_init = Ok ((back, F), s) ->
  (forall i t, nth_error F i = Some (Some t) -> False) ->
  Permutation (map TBuf (seq 0 (m_next s)) ++ m_cloned s ++ flat_map given os) (m_gone s ++ back).
Proof.
  intros B K V P os back F s E HF. destruct (C27_everything_accounted_for B K V P os) as (_ & _ & H).
  specialize (H back F s E). replace (forest_things F) with (@nil (thing K V)) in H; [now rewrite app_nil_r in H|].
  clear E H. induction F as [|[t|] F IH]; cbn; [reflexivity| |].
  - exfalso. exact (HF 0 t eq_refl).
  - apply IH. intros i t Hi. exact (HF (S i) t Hi).
Qed.
Print Assumptions C27_all_dropped_exactly_once.

(** Trees never share a vector, and every vector of every tree is allocated. *)
Theorem C27_buffers_live_and_not_shared :
  forall (B K V : Type) (P : Params B K) (os : list (mop B K V)) back F s,
  mrun P [] os mem_init = Ok ((back, F), s) ->
  NoDup (bufs (forest_things F)) /\ forall id, In (TBuf id) (forest_things F) -> live s id = true.
Proof.
  intros B K V P os back F s E. assert (Hw := mrun_whole P os).
  destruct (prun P [] os) as [[back0 F0]| | |]; try contradiction; [|congruence].
  destruct Hw as (F' & s' & E' & _ & Ho). rewrite E in E'. injection E' as <- <- <-. split.
  - apply own_bufs in Ho. assert (Hn : NoDup (bufs (m_gone s) ++ bufs (back ++ forest_things F))) by (eapply Permutation_NoDup; [exact Ho|apply seq_NoDup]).
    unfold bufs in Hn at 2. rewrite flat_map_app in Hn. fold (bufs back) (bufs (forest_things F)) in Hn.
    rewrite app_assoc in Hn. revert Hn. generalize (bufs (m_gone s) ++ bufs back). intros l.
    induction l as [|x l IH]; cbn; [auto|]. inversion 1; auto.
  - intros id Hin. eapply own_live; [exact Ho|]. apply in_or_app. now right.
Qed.
Print Assumptions C27_buffers_live_and_not_shared.

(** In supported configurations no call panics, so the accounting above always applies. *)
Theorem C27_supported_programs_run :
  forall (B K V : Type) (P : Params B K) (os : list (mop B K V)),
  Forall supported_op os -> exists back F s, mrun P [] os mem_init = Ok ((back, F), s).
Proof. intros. now apply mrun_total. Qed.
Print Assumptions C27_supported_programs_run.

(** This model of ownership and the model of the other theorems agree: the same calls panic, the same keys and values are
    given back, and the trees are the same but for the buffers. *)
Theorem C27_agrees_with_plain_model :
  forall (B K V : Type) (P : Params B K) (os : list (mop B K V)),
  match prun P [] os, mrun P [] os mem_init with
  | Ok (back, F), Ok ((back', F'), _) => back' = back /\ forget_forest F' = F
  | Panic, Panic => True
  | _, _ => False
  end.
Proof.
  intros B K V P os. assert (Hw := mrun_whole P os).
  destruct (prun P [] os) as [[back0 F0]| | |]; try contradiction.
  - destruct Hw as (F & s & -> & E & _). auto.
  - rewrite Hw. exact Logic.I.
Qed.
Print Assumptions C27_agrees_with_plain_model.

(** A program: splits at two levels, a clone, replacement, removals from both with re-insertion, both dropped. *)
Definition drop_ops : list (mop (saabb i32 2) (svec i32 2) nat) :=
  MNew (cfg_of 4 2) ::
  flat_map (fun o => match o with
                     | OInsert k v => [MInsert 0 k v]
                     | OInsertUnique k v => [MInsertUnique 0 k v]
                     | ORemove k => [MRemove 0 _ (self_borrow PP) k]
                     | OSet k v => [MReplace 0 _ (self_borrow PP) k v]
                     | _ => [] end) sample_ops ++
  [MClone 0] ++
  map (fun k => MRemove 0 _ (self_borrow PP) k)
    [pt 0 0; pt 9 9; pt 1 8; pt 3 3; pt 3 3; pt 5 5; pt 2 9; pt 8 1; pt 6 6; pt 4 4; pt 0 9; pt 1 1; pt 20 20; pt 21 20] ++
  [MInsert 1 (pt 6 7) 40; MDrop 0].

Definition summary (r : res ((list (thing (svec i32 2) nat) * forest (saabb i32 2) (svec i32 2) nat) * mem (svec i32 2) nat)) : list nat :=
  match r with
  | Ok ((back, F), s) => [m_next s; length (m_gone s); length (m_cloned s); length back; length (forest_things F); length (bufs (forest_things F))]
  | _ => []
  end.

(** 27 vectors and 44 clones are made and 53 keys and values handed over: 124 in all.  Before the second drop 48 are gone,
    18 were given back and 58 are stored, 12 of these vectors; after it 106 are gone and 18 given back. *)
Example C27_example :
  Forall supported_op (drop_ops ++ [MDrop 1]) /\ length (flat_map given drop_ops) = 53 /\
  summary (mrun PP [] drop_ops mem_init) = [27; 48; 44; 18; 58; 12] /\
  summary (mrun PP [] (drop_ops ++ [MDrop 1]) mem_init) = [27; 106; 44; 18; 0; 0].
Proof. split; [repeat constructor; cbn; lia|]. split; [reflexivity|]. split; vm_compute; reflexivity. Qed.
