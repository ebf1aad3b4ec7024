# Formal model of rusty-rtree in Rocq (Coq 8.16.1)

The plan was written before the proofs; this file is kept current as the model grows. Sections: approach, trusted base,
what is modelled and what is not, the properties, the files, how to check.

## 1. Approach

* The tree core (`node.rs`, `split.rs`, `select.rs`, `util.rs`, `lib.rs`) is modelled as executable Gallina functions over
  lists. `&mut` becomes "returns the new value".
* Every function that can panic or reach undefined behaviour returns `res A = Ok a | Panic | UB | OutOfFuel`. Reading the
  `NodeChildren` union (or the unions in the iterators) as the wrong kind is `UB`; `panic!`, `unwrap()` of `None`,
  `unreachable!()`, slice index out of range are `Panic`. Loops that are not structurally recursive get fuel computed from
  their state, and theorems exclude `OutOfFuel`.
* Levels are passed exactly as in the code (nodes do not store them), and recursion is on the level.
* Bounds, volume, key equality and key bounds are a record of operations (`Params`); theorems are universally quantified
  over it, with laws as explicit hypotheses (`Spec.v`), and the laws are proved for the boxes the crate provides (any
  dimension, `i32` coordinates). Nothing is assumed about volumes anywhere in the structural theorems: they hold for
  every volume function and every result of a comparison of volumes, so `f64` rounding, infinities and NaN are covered.
* "Reachable" is: produced by any finite history of calls on a new tree with any configuration.
* Iterators are the stack machines (or heaps) they are in the code. `iterates next s l` says: however often `next` is
  called, the answers are the elements of `l` in order and then `None` for ever, with no panic and no UB.
* `BinaryHeap` is any priority queue satisfying its documented contract (`SortedModel.v`); a concrete one is built to show
  that the contract can be met.
* Four layers of memory model: `FCVecModel.v` (raw cells of one vector), `RcMutModel.v` (boxes shared between an allocator
  and references), `MemModel.v` (the tree operations again, with numbered buffers and a log of destructors, no unwinding)
  and `CrashModel.v` (the same with unwinding panics at every call of user code). `C27_agrees_with_plain_model` and
  `C49_agrees_without_panics` tie the upper layers to `Model.v`; `C28_tree_model_uses_this_list` ties `FCVecModel.v` to the
  list operations used by `Model.v`.
* `CheckModel.v` is Model.v once more with every union, volume and volume subtraction recorded, and panicking where a build
  with overflow checks and debug assertions panics; `C56_counts_the_model` ties it to Model.v.
* `FxModel.v`, `FxSortedModel.v` and `FxLeftModel.v` are the iterators and joins once more with callbacks that have state and may panic; the outcome of `next` is
  `Yield`, `Done` or `Panicked`, and the iterator left behind by a panic is part of the result.
* Geometry: boxes over any total order (`order_laws`); coordinates are `i32`, in `UModel.v` unsigned (`u8`, `u16`, `u32`) and in `SintModel.v` signed (`i8`, `i16`, `i32`) integers of any width, or, in `FpModel.v`, floats of any format without NaN
  (`N64`, `N32`); `f64` is `Coq.Floats.SpecFloat` (pure Gallina binary64), related to the reals
  through Flocq; statements about distances, segments, rays and spheres are over the reals.
* A property that the code violates is not weakened silently: it stays in `properties.jsonl` as a user would state it, a
  theorem `..._refuted` proves its negation on a concrete reachable case, and `..._partial` theorems prove what does hold.

## 2. Trusted base

* Coq 8.16.1's kernel (with its `vm_compute` conversion, used for closed computations), the OCaml runtime, and the build
  scripts. No plugins, no axioms of our own, no switched-off check, no `Admitted`.
* `Print Assumptions` is run after every theorem in the `Prop*.v` files and appears in the build log.
  * Closed under the global context: every theorem of PropCore, PropCrash, PropDist, PropDrop, PropGeom, PropIter,
    PropJoin, PropMem, PropRc, PropSorted and the later Prop files unless listed below.
  * PropFloat (C36, C47), PropSeg (C37, C38), PropSphere (C39), PropFp, PropFpDist, PropFpSphere, PropFpSeg, PropFpRay, PropLen, PropVolume, PropFpCheck (C57-C60, C74-C77, C80, C82), PropSplit, PropFpSplit (the instances of C42, C44, C81 for numbers), PropSint (C85, except the query theorems), PropUnsigned (C69, the sphere theorems of C70) and those of the theorems of later files that speak about real
    numbers list the axioms of the standard library's real numbers:
    `ClassicalDedekindReals.sig_forall_dec`, `ClassicalDedekindReals.sig_not_dec`,
    `FunctionalExtensionality.functional_extensionality_dep` and (through Flocq) `Classical_Prop.classic`.
* The translation from Rust to Gallina is by hand. Each definition of the `*Model.v` files cites the lines it models.
* Contracts of `std` that are assumed by the model (they are part of its definitions, not axioms): `slice::iter`,
  `Vec`/`Box` ownership, `Iterator::{min_by, min_by_key, position, rposition, find, reduce, zip}`, `BinaryHeap`
  (push/pop with respect to `Ord`), `Layout::{array, extend, pad_to_align}`, `alloc::{alloc, dealloc}` returning fresh memory;
  `noisy_float::N64` comparisons as read from its source documentation; `num_traits::Bounded` for `i32`.

## 3. What is modelled, file by file

| file | modelled | not modelled |
|------|----------|--------------|
| `lib.rs` | configuration, `new`, `insert`, `insert_unique`, `get`, `get_mut`, `remove`, `len`, `is_empty`, `clone`, all iterator constructors, joins, `min_by`/`filter_min_by`, debug assertions (BVH, fill, equality), `Debug`, drop | `&RTree`/`&mut RTree::into_iter` are `iter`/`iter_mut` |
| `node.rs` | all tree algorithms, union access by level, ownership moves (`ptr::read`, `mem::forget`, `leak`, `wrap`), destructors, clone, `Debug` of nodes | `Debug` of the children containers (unused by the API); accessors `level`, `node`, `borrow`, ... are identities in the model |
| `split.rs`, `select.rs`, `util.rs` | completely (any volume function, and `f64` for `i32` boxes) | `empty_slice` (a dangling slice of length 0) |
| `fc_vec.rs` | raw memory of a vector, all operations, `IntoIter` by byte address, `Layout::array` of zero bytes | `Debug`, `PartialEq`; alignment of addresses |
| `iter_stack.rs` | the stack, union access, sub-stack views, `map_into`; byte layouts of its allocations (LayoutModel.v) | `IterStack::map` (dead code), `Debug` |
| `iter.rs` | all ten iterators | `ExactSizeIterator`-style hints (there are none) |
| `join.rs`, `left_join.rs` | completely, the latter also over the `RcMut` heap | |
| `rc_mut.rs` | heap of boxes, `shared` flag, allocator, references, in any interleaving; layouts (LayoutModel.v) | stacked-borrows aliasing rules |
| `filter.rs`, `contains.rs`, `intersects.rs`, `ranking.rs`, `bounds.rs`, `vector.rs`, `geom/*` | completely over `i32`, exact arithmetic, unsigned integers and floats, `f64` parameters as IEEE doubles | `SVec` `AddAssign`/`Index`; the panics of `volume` and `sq_dist_to` in dimension 0 |

Also not modelled: running out of memory (`handle_alloc_error` aborts), `usize` overflow of lengths (a vector of 2^63
elements cannot exist), destructors that panic other than those run by dropping a tree (`DtorModel.v`), the order in which the locals of one scope are destroyed, threads (the
crate's only `unsafe impl Send/Sync` are those of `FCVec<T>`, conditional on `T`; it has no interior mutability outside `rc_mut.rs`, whose types are not shared between
threads).

## 4. Properties

| id | property | what is modelled, how it is proved | status |
|----|----|----|----|
| C01 | insert adds exactly one entry | `insert` of Model.v on every reachable tree; induction on the level (InsertProof.v), Permutation of the entries in iteration order | proved |
| C02 | get finds the first entry with an equal key | `get`; needs the cover invariant (every stored key's bounds inside the bounds of all nodes above it), so that pruning never misses the first match | proved |
| C03 | remove removes exactly one equal entry | `remove` with re-insertion of underfull nodes and root collapse (RemoveProof.v) | proved |
| C04 | remove takes the first of several equal entries | counterexample history, evaluated by the kernel; partial: which duplicate is removed, and when it is the first | partial |
| C05 | insert_unique replaces the first equal entry or inserts | `insert_unique`; exact list equality on replacement, Permutation on insertion (LookupProof.v) | proved |
| C06 | insert_unique and remove give a map | refinement of histories of `insert_unique`/`remove`/`get` to finite maps, by induction over the history | proved |
| C07 | len counts entries, is_empty is len = 0 | `len`, `is_empty` on reachable trees; invariant: non-root nodes are non-empty | proved |
| C08 | is_empty agrees with len also for min_children = 0 | counterexample history for `min_children = 0`; partial: what holds then | partial |
| C09 | iter yields every entry exactly once | the stack machine of iter.rs; simulation with the list of pending entries (`iterates`: every number of calls of `next`, also after the end) | proved |
| C10 | filter_iter yields exactly the matching entries | the same machine with a filter; any filter (exact account of pruned entries), then lawful filters | proved |
| C11 | mutable iterators hand out each value once | trees of locations: values live in a memory, the iterator hands out locations; NoDup and in bijection with the entries | proved |
| C12 | get_mut addresses the entry that get finds | `get_mut` as a lens; get-put/put-get and frame | proved |
| C13 | iter_asc_by is complete and ascending | SortedIter over any priority queue satisfying the contract of `BinaryHeap`; heap invariant | proved |
| C14 | min_by returns a minimal entry | corollary of C13/C16 for the first answer | proved |
| C15 | min_by returns the first of several minimal entries | counterexample for every lawful priority queue; partial: unique minima | partial |
| C16 | filter_iter_asc_by is complete and ascending on ranked entries | FilterSortedIter, as C13 with optional metrics | proved |
| C17 | join yields exactly the matching pairs | JoinIter stack machine; pending-list invariant over pairs; any filter, then lawful filters | proved |
| C18 | left_join yields every left entry with exactly its matches | LeftJoinIter with both stacks; invariant relating left position, right stack and pruned nodes | proved |
| C19 | bounding volume hierarchy | invariant of reachable trees; also the crate's own debug assertion as a function that cannot fail | proved |
| C20 | node fill | invariant of reachable trees for min/max children; root exempted; crate's own assertion | proved |
| C21 | minimum fill for the largest splittable minimum | counterexample for the largest minimum; partial: fill min-1; the exact guaranteed fill for every configuration | partial |
| C22 | uniform depth and logarithmic height | all leaves at the root's level; height bounded by logarithm of the number of entries | proved |
| C23 | no panic | no `Panic` outcome for any supported configuration; exact set of panic-free configurations for i32 points (MinOne.v, Wide.v) | proved |
| C24 | min_children = 1 is usable | counterexample; for every tree type with enough keys; partial: histories without removal | partial |
| C25 | node storage is never read as the wrong kind | no `UB` outcome: union fields, uninitialised memory, for every history and call | proved |
| C26 | clone is an equal, independent tree | clone is equal; later histories on either do not affect the other (value model; buffers not shared by C27_buffers_live_and_not_shared) | proved |
| C27 | every key and value is dropped exactly once | MemModel.v: every vector has a buffer number, every destructor is logged; what was given or cloned = what is returned, stored or destroyed, as multisets, at every point of every program over any number of trees | proved |
| C28 | the fixed-capacity vector is a memory-safe list | FCVecModel.v: cells that may be uninitialised, ptr::read/write/copy; refinement to bounded lists for all call sequences | proved |
| C29 | inner iterators of left_join never share memory | RcMutModel.v: heap of boxes with a shared flag, arbitrary interleaving of allocator and references; then the left join over it, with inner iterators used in any order | proved |
| C30 | union of boxes is the least upper bound | boxes over any total order; induction on the dimension | proved |
| C31 | box intersection is geometric | as C30 | proved |
| C32 | box containment is geometric | counterexample; partial: the exact meaning of the implemented test | partial |
| C33 | box queries return exactly the overlapping entries | C10 with C31 | proved |
| C34 | contains queries return exactly the contained entries | counterexample; partial as C32 | partial |
| C35 | nearest-neighbour search is exact | integer coordinates without overflow; exact squared distance; composition with C13 | proved |
| C36 | sq_dist_to is the squared distance of two boxes | reals; infimum of distances of points | proved |
| C37 | segment/box test | slab test over numbers with infinities/NaN and an arbitrary rounding; exact arithmetic, then f64 (Flocq) error analysis for i32; counterexamples for rounding and overflow | partial |
| C38 | ray/box test | as C37, three counterexamples; exact characterisation | partial |
| C39 | sphere queries | sphere test in f64 over i32; three counterexamples; exact below 94906265 | partial |
| C40 | every inserted key can be found again | counterexample (inverted boxes); partial: valid boxes | partial |
| C41 | a split is a partition with exact bounds | splitter for every volume function: permutation, exact unions, sizes | proved |
| C42 | insertion descends into a child of least volume increase | selector: least volume increase, first such; the descent of insert follows it | proved |
| C43 | consuming a node's vector yields all its elements | byte addresses in IntoIter: proved for size > 0, refuted for size 0 | partial |
| C44 | split seeds are the pair of greatest joint volume | counterexample; partial: what the seeds are | partial |
| C46 | creating a node's storage is defined behaviour | Layout of zero bytes: refuted; exact condition | partial |
| C45 | nearest-neighbour search does not overflow in checked builds | checked arithmetic; refuted for the empty tree; partial: all other trees without overflowing coordinates; SearchProof.v: the whole search session with a ranking that panics on overflow | partial |
| C47 | sq_dist_to on integer boxes in floating point | sq_dist_to over i32 in f64: refuted when a coordinate difference overflows; exact otherwise; distance joins | partial |
| C48 | no undefined behaviour when user code panics | CrashModel.v: any call of user code may unwind, destructors of locals run, the program goes on; no UB for max_children <> 1 or bounds without destructor | partial |
| C49 | calls before and after caught panics do what they say | every call: effect on the tree, on everything owned, and on all other trees, whether or not it panics | proved |
| C50 | a call that panics loses no stored entry | counterexample; partial | partial |
| C51 | stored keys are found after a caught panic | counterexample; partial | partial |
| C52 | after a caught panic the library does not panic by itself | counterexample; partial | partial |
| C53 | a call that panics leaks nothing | counterexample; partial | partial |
| C54 | memory is given back with the layout it was requested with | LayoutModel.v: layouts as size and alignment, a heap of blocks that remembers the layout of each; `ldealloc` is undefined for any other layout. Invariant: distinct owners own distinct live blocks of the layout they will be given back with; induction over the requests and returns. | partial |
| C55 | a build with overflow checks and debug assertions behaves like a release build | CheckModel.v: the functions of Model.v in a writer-and-panic monad that records every call of union, volume and volume subtraction and may fail there. CheckProof.v: simulation (equal outcome, or panic and something asked for does not fit); invariant 'bounds of every non-root node lie in the window' through rel_win; CheckI32.v: products of at most D factors of 2^k are finite (Flocq). Refutations by computation. | partial |
| C56 | insertion and removal take logarithmically many geometric operations | CheckModel.v, CostProof.v: sums of the recorded calls, by induction over the tree; a split of n elements takes at most 5 n^2; re-inserted entries are at most (min_children - 1) per level. Logarithms from C22. | proved |
| C57 | lookups and box queries are exact for floating-point coordinates | FpModel.v: NoisyFloat over SpecFloat (any format), its Ord/Eq/Bounded and the volume of boxes. FpSpec.v: the extended real a float stands for. FpProof.v: comparisons agree with the order of the extended reals (Flocq for the finite part), hence order_laws, hence the laws of boxes and the general theorems C02, C03, C05, C33 apply. | proved |
| C58 | node bounds are least boxes for floating-point coordinates | FpProof.v: rel_least (the bounds are the least box above the empty box and every key) is closed under what the tree does, for any total order; finite floats lie between MIN and MAX. Refutations by computation. | partial |
| C59 | nearest-neighbour search over floating-point coordinates is complete and ascending in the computed distance | FpDist.v: SpecFloat's operations are Flocq's; values of sub, square, sum of non-negative numbers as roundings in the extended reals; monotonicity of each; the clamped point is nearer in every coordinate; so EuclideanDistanceRanking is lawful and C13's proof applies. | proved |
| C60 | nearest-neighbour search over floating-point coordinates is ascending in the true distance | FpDist.v: error bounds of the roundings (Flocq's relative error lemmas; sums and differences do not underflow) composed by induction over the dimensions. Refutation: a computed tree of two points. | partial |
| C61 | queries through a filter adaptor yield exactly the entries that meet the space | PropFilter.v: each adaptor is shown to be a lawful filter (filter_lawful) under the stated law of the space; then C10. | proved |
| C62 | a query asks about each node and entry at most once, in order, and never below a rejected one | FxModel.v: the iterators with callbacks W -> x -> option bool * W (None: panic). FxSpec.v: a search is a forest of questions; explore says which logs and results a depth-first walk can have. FxProof.v: each call of next consumes a prefix of the iterator's agenda. | proved |
| C63 | a caught panic in a filter costs only what that question was about | From C62 and lawfulness: explore_faithful (FxProof.v) by induction on the exploration. | proved |
| C64 | ordered iteration is a lazy best-first search | FxSortedModel.v: the ordered iterators with rankings W -> x -> option (option M) * W. FxSortedSpec.v: best_first. Each call of next is a prefix of a best-first search (FxSortedProof.v); counting and laziness by induction on best_first (FxSortedLaw.v). | proved |
| C65 | a caught panic in a ranking costs only what that question was about | Partial from C64's best_first with truthful answers (bf_lawful, FxSortedLaw.v); refuted by computation on the sample tree. | partial |
| C66 | a left join with stateful or panicking callbacks visits every left entry once, in order | FxLeftModel.v: LeftJoinIter with callbacks W -> .. -> option _ * W. FxLeftSpec.v: left_walk, prune. Invariant over the two stacks preserved by every call, also by one that unwinds (FxLeftProof.v). | proved |
| C67 | after a caught panic a left join still pairs entries with exactly their matches | The same invariant with 'the matches among the remaining right entries are the matches in the right tree' for prune; then C62's exploration of the right stack. | proved |
| C68 | the number of nodes is proportional to the number of entries | PropSpace.v: node_count; induction over levels from C20/C21's fill bounds, and from 'some node at every level is wide' (Wide.v) for large minima; for min_children = 0 a history that fills and empties the tree while remove keeps every node. | partial |
| C69 | unsigned coordinates: overflow checks change nothing | UModel.v (w-bit unsigned integers), UProof.v: every box that occurs is a union of keys, hence min <= max, its extents are in range and its volume is a finite double; CheckRun.v's simulation then shows the recorded checks never fail. | proved |
| C70 | distances, spheres and segments with unsigned coordinates | UDist.v: iff-characterisation of the checked distance; SearchProof.v runs the search; spheres through Flocq as in SphereProof.v, with differences taken modulo 2^w; refutations on concrete trees. | partial |
| C71 | debug printing shows the tree | DebugModel.v models the Debug impls on top of the builders of core::fmt (strings, PadAdapter, early stop on error); DebugProof.v: calls made by induction on levels; a parsing argument for injectivity, with decimal i32 from the standard library. | proved |
| C72 | dropping a tree with panicking destructors is memory safe | DtorModel.v: dropping a tree with destructors that may panic, drop glue and aborts; programs around it (zrun). DtorProof.v: units destroyed in order, composed along the recursion; the ownership invariant of C48 for whole programs. | proved |
| C73 | a panicking destructor leaks nothing else | As C72; a concrete tree refutes it, and the exact leak is the units after the panicking one. | partial |
| C74 | sphere queries with float coordinates | FpSphereModel.v instantiates the sphere model with the float operators. FpSphereProof.v: conversion to f64 is exact, error of the rounded sum of squares (as C60), the rounded box contains every point truly inside by monotonicity of rounding, and a filter finds every entry that its test accepts and whose containing boxes it does not prune. | partial |
| C75 | segment queries with float coordinates | FpSegModel.v instantiates the segment model with the float operators. FpSegProof.v: the test as a list of conditions on pairs of rounded quotients; rounding is monotone, so a larger box has a wider pair on every axis (line_grows_x) and pruning loses nothing; relative error of subtraction, inverse and product, so each side is moved by at most kappa times its distance. | partial |
| C76 | ray queries with float coordinates | As C75, with the fold that starts from the first axis (ray_fold), where a 0/0 makes the test fail. | partial |
| C77 | length of a segment | LenModel.v adds the square root (SFsqrt of the standard library). LenProof.v: SFsqrt is Flocq's Bsqrt; the square root of a double never underflows, so its error is relative; sums of squares of integers have only relative errors (relx), sums of squares of floats as in C74 (approx2). | partial |
| C78 | user code that answers as it likes | WildModel.v repeats the tree operations of CrashModel.v with the parameters replaced by an oracle (group number, call number) -> answers, and a crash flag per group. WildSpec.v: effects with evidence that user code said two keys are equal. WildProof/WildTree/WildUnique/WildOps/WildForest: the ownership specifications of C48-C53 without a reference model, extended by call numbers and by fill bounds that hold if nothing panics (np). | proved |
| C79 | ordered iteration is safe whatever the metric's Ord does | HeapModel.v: the ordered iterators of FxSortedModel.v over a heap whose operations see and change the outside state, may panic and keep no order. HeapSpec.v: any_first, a search that takes what waits in any order and, if lossy, may lose some. HeapProof.v: the invariant is that every item in the heap has the kind its level says, which no comparison result can change. | proved |
| C80 | the volume of a box | VolSpec.v: side lengths and their product over the reals, and the rounding of a floating-point operation. VolProof.v: a product of non-negative doubles is monotone and finite below a finite one; integer products are exact below 2^53 and otherwise accurate to (1 + 2^-53)^(D-1) - 1. Differences: i32 wraps (narrow boxes), unsigned never wraps for valid boxes, floats round. Refutations by computation on concrete boxes. | partial |
| C81 | a split sends each element to the group it enlarges less | SplitSpec.v: an inductive relation that distributes a bag of elements over two groups, round by round, without arrays or indices; parameterised by when a group claims all that remain. HeurProof.v: the loop over the array refines it (the min_by of the code returns a least element; swaps and swap_remove are permutations). VolLaws.v: volumes of integer boxes are finite doubles even when they wrap, so volumes and their differences are totally preordered. Refutation by inversion of the relation on five points. | partial |
| C82 | debug and release builds agree for floating-point coordinates | FpCheckSpec.v: when the assertions of the float type in Volume::volume and in differences of volumes hold; CheckModel.v runs the tree with these checks. FpCheckProof.v: unions of boxes with small coordinates have small coordinates, sides at most 2^(k+1) (Flocq: rounding is monotone), products stay below the overflow limit of f64; hence all volumes are finite. Refutations by computation. | partial |
| C83 | vector operators act on each coordinate by itself | VecModel.v: the operators as loops over indices with scalar operators that may panic; statements in terms of the list of coordinates (nth_error). Induction on the dimension. | proved |
| C84 | what a tree answers does not depend on its configuration | Indep.v: every call of a tree is a step of an abstract multiset of entries; two abstract runs with the same calls stay permutations of each other (unique keys) or agree on the number of entries per key. Induction on the history. | proved |
| C85 | signed coordinates of any width | SintModel.v: the signed type of w bits and a sign, arithmetic wrapping or checked. SintProof.v shows that it meets the laws the generic theorems need (integers, checked integers, volumes with sides below 2^w); PropSint.v draws the consequences, the window theorems by the invariant that all bounds of a reachable tree lie in the window. | proved |
| C86 | a right-hand iterator is complete when it is handed out | InitModel.v: memory whose slots may be unwritten, the guard of init_into with its destructor, map_into, Drop of a stack; InitProof.v by induction on the slots, and an invariant of the left join (the length of its right-hand stack). It also shows that remainder_stack of LeftJoinModel.v is what map_into computes. | proved |

## 5. Files (`rocq/theories`)

* Vocabulary of the statements, independent of the model's helpers: `Spec.v`, `IterSpec.v`, `GeomSpec.v`, `DistSpec.v`, `RealSpec.v`,
  `SegSpec.v`, `FCVecSpec.v`, `RcMutSpec.v`, `MemSpec.v`, `CrashSpec.v`, `CheckSpec.v`, `FpSpec.v`, `FxSpec.v`, `FxSortedSpec.v`, `FxLeftSpec.v`, `SearchSpec.v`, `USpec.v`, `DebugSpec.v`, `DtorSpec.v`, `LenSpec.v`, `WildSpec.v`, `HeapSpec.v`, `VolSpec.v`, `SplitSpec.v`, `FpCheckSpec.v`, `IndepSpec.v`, `SintSpec.v`, `InitSpec.v`.
* Models: `Base.v`, `Model.v`, `IterModel.v`, `SortedModel.v`, `JoinModel.v`, `LeftJoinModel.v`, `GeomModel.v`, `DistModel.v`, `SegModel.v`,
  `SphereModel.v`, `FCVecModel.v`, `RcMutModel.v`, `MemModel.v`, `CrashModel.v` and the later `*Model.v`.
* Theorems: `Prop*.v`. Beside each theorem an `Example` shows a concrete non-trivial case meeting its hypotheses.
* Everything else is proof.

## 6. Mutation testing

`seeded/LOG.jsonl`: one line per seeded bug (definition, edit, claim it breaks, theorems that failed, theorems tightened).

## 7. Checking

`cd rocq && coq_makefile -f _CoqProject -o Makefile && make -j4`; `tools/manifest.py` regenerates `MANIFEST.json` from the theorem names.
