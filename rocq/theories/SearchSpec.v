(** Specification vocabulary for searches in builds with overflow checks. *)
From Verif Require Export SearchModel FxSortedSpec.

(** The iterator is made without a panic, and whatever number of times [next] is called, the calls return the entries of [l]
    in order, then [None] for ever; none of them panics. *)
Definition searches_without_panic {B K V M} (PQ : PQueue (ranked B K V M)) (f : FxRanking unit B K M) (t : rtree B K V)
    (l : list (K * V)) : Prop :=
  exists h, fx_sorted_new PQ f t tt = (Some h, tt) /\
  forall n, exists h' tr, session (traced (fx_sorted_next PQ (rlogged f))) (repeat (fun w => w) n) h tt []
    = Ok (map (fun e => Yield e) (firstn n l) ++ repeat Done (n - length l), h', tt, tr).
