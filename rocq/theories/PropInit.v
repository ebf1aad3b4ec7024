(** C86: the storage of a right-hand iterator is fully written before it is handed out. *)
From Verif Require Import Witness.
From Verif Require Export InitProof.

(** Building a stack in memory with any contents, with callbacks that answer or panic: it never reads a slot that was not
    written.  When it ends, every slot has been written, the first by [leaf] and slot [i] by [inner i]; it panics only if a
    callback does, and then the slots written so far are left as they are and nothing has been dropped. *)
Theorem C86_storage_written :
  forall (L I : Type) (old : memory L I) (leaf : res L) (inner : nat -> res I),
  leaf = Panic \/ (exists x, leaf = Ok x) -> (forall i, inner i = Panic \/ exists y, inner i = Ok y) ->
  (old = [] /\ init_into old leaf inner = Ok (Some [], [], []))
  \/ (old <> [] /\ leaf = Panic /\ init_into old leaf inner = Ok (None, old, []))
  \/ (exists x ys, leaf = Ok x /\ answers inner 1 ys /\ length old = 1 + length ys /\
        init_into old leaf inner
        = Ok (Some (SLeaf x :: map SInner ys), Written (SLeaf x) :: map (fun y => Written (SInner y)) ys, []))
  \/ (exists x ys, leaf = Ok x /\ answers inner 1 ys /\ inner (1 + length ys) = Panic /\ 1 + length ys < length old /\
        init_into old leaf inner
        = Ok (None, Written (SLeaf x) :: map (fun y => Written (SInner y)) ys ++ skipn (1 + length ys) old, [])).
Proof.
  intros L I old leaf inner Hl Hi.
  destruct (init_spec leaf inner old) as [[? ?]|[(? & ? & ?)|[(x & ys & H1 & H2 & H3 & H4)|(x & ys & H1 & H2 & H3 & H4 & H5)]]].
  - destruct Hl as [->|[x ->]]; split; discriminate.
  - intros i. destruct (Hi i) as [->|[x ->]]; split; discriminate.
  - auto.
  - auto.
  - right. right. left. exists x, ys. repeat split; auto. rewrite H4. unfold stack_new. cbn [map]. now rewrite map_map.
  - right. right. right. exists x, ys. repeat split; auto. rewrite H5. unfold holds, stack_new. cbn [map length app].
    now rewrite map_map, map_length.
Qed.
Print Assumptions C86_storage_written.

(** Dropping a stack that was built destroys everything in it exactly once. *)
Theorem C86_dropped_once :
  forall (L I : Type) (x : L) (ys : list I),
  stack_drop (SLeaf x :: map SInner ys) = Ok (inl x :: map inr ys) /\ stack_drop (@nil (slot L I)) = Ok [].
Proof. intros. split; [apply stack_drop_new|reflexivity]. Qed.
Print Assumptions C86_dropped_once.

(** The crate's callbacks never stop halfway.  After any number of calls of a left join, with any filter: when it answers with
    a left entry and a right-hand iterator [st], building [st] in a block of the size that was requested, whatever is in
    the block, ends normally and has written every slot; dropping the iterator then drops each slot once. *)
Theorem C86_right_iterators :
  forall (B0 B1 K0 K1 V0 V1 Q0 Q1 : Type) (f : JoinFilter B0 B1 Q0 Q1) (a : rtree B0 K0 V0) (b : rtree B1 K1 V1)
    (it0 it it' : left_join_iter) (e : K0 * V0) (st : tree_stack) (mem : memory (list (K1 * V1)) (list (node B1 K1 V1))),
  rtree_left_join a b = Ok it0 -> advanced (left_join_next f) it0 it ->
  left_join_next f it = Ok (Some (e, st), it') -> length mem = length (right_block b) ->
  build_right (snd it') mem = Ok (Some st, map Written st, []) /\
  length st = length mem /\ exists x ys, st = SLeaf x :: map SInner ys /\ stack_drop st = Ok (inl x :: map inr ys).
Proof.
  intros * H1 H2 H3 H4. assert (Hb := right_iterators f a b it0 it e st it' mem H1 H2 H3 H4). split; [exact Hb|].
  assert (Hn := left_join_next_mem _ _ _ _ H3). destruct Hn as [Hl Hr]. rewrite (advanced_length _ _ _ H2) in Hl.
  rewrite (left_join_new_length a b it0 H1) in Hl.
  assert (Hne : snd it' <> []) by (intros E; rewrite E in Hl; cbn in Hl; lia).
  destruct (remainder_shape _ _ Hr Hne) as (x & ys & ->). split.
  - assert (Hx : forall (r : @rw_stack B1 K1 V1) s, remainder_stack r = Ok s -> length s = length r).
    { intros [|[z|z] r] s E; cbn in E; [now injection E as <-| |discriminate].
      destruct (rw_remainder z); try discriminate. cbn in E. destruct (remainder_inner r) as [t| | |] eqn:Et; try discriminate.
      cbn in E. injection E as <-. destruct (remainder_inner_spec r t Et) as (rs & xs & -> & -> & HF). cbn. rewrite !map_length.
      clear -HF. induction HF; cbn in *; congruence. }
    rewrite (Hx _ _ Hr), Hl, H4. unfold right_block. now rewrite repeat_length.
  - exists x, ys. split; [reflexivity|]. apply stack_drop_new.
Qed.
Print Assumptions C86_right_iterators.

(** The first right-hand iterator of the left join of [sample] with itself is built in a block of four slots (height 2); and a
    callback that panics in the third of four slots. *)
Definition C86_all : JoinFilter (saabb i32 2) (saabb i32 2) (svec i32 2) (svec i32 2) :=
  {| jtest_bounds := fun _ _ => true; jtest_key := fun _ _ => true |}.
Definition C86_check : bool :=
  match rtree_left_join sample sample with
  | Ok it =>
    match left_join_next C86_all it with
    | Ok (Some (e, st), it') =>
      match build_right (snd it') (right_block sample) with
      | Ok (Some st', m, _) => (length m =? 4) && (length st' =? 4) && match stack_leaf st' with Ok (_ :: _) => true | _ => false end
      | _ => false
      end
    | _ => false
    end
  | _ => false
  end.
Example C86_example :
  C86_check = true /\
  init_into [Uninit; Uninit; Uninit; Uninit] (Ok 7) (fun i => if i =? 2 then Panic else Ok i)
  = Ok (None, [Written (SLeaf 7); Written (SInner 1); Uninit; Uninit], []).
Proof. split; vm_compute; reflexivity. Qed.
