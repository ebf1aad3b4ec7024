{
 "C01": "`insert` of Model.v on every reachable tree; induction on the level (InsertProof.v), Permutation of the entries in iteration order",
 "C02": "`get`; needs the cover invariant (every stored key's bounds inside the bounds of all nodes above it), so that pruning never misses the first match",
 "C03": "`remove` with re-insertion of underfull nodes and root collapse (RemoveProof.v)",
 "C04": "counterexample history, evaluated by the kernel; partial: which duplicate is removed, and when it is the first",
 "C05": "`insert_unique`; exact list equality on replacement, Permutation on insertion (LookupProof.v)",
 "C06": "refinement of histories of `insert_unique`/`remove`/`get` to finite maps, by induction over the history",
 "C07": "`len`, `is_empty` on reachable trees; invariant: non-root nodes are non-empty",
 "C08": "counterexample history for `min_children = 0`; partial: what holds then",
 "C09": "the stack machine of iter.rs; simulation with the list of pending entries (`iterates`: every number of calls of `next`, also after the end)",
 "C10": "the same machine with a filter; any filter (exact account of pruned entries), then lawful filters",
 "C11": "trees of locations: values live in a memory, the iterator hands out locations; NoDup and in bijection with the entries",
 "C12": "`get_mut` as a lens; get-put/put-get and frame",
 "C13": "SortedIter over any priority queue satisfying the contract of `BinaryHeap`; heap invariant",
 "C14": "corollary of C13/C16 for the first answer",
 "C15": "counterexample for every lawful priority queue; partial: unique minima",
 "C16": "FilterSortedIter, as C13 with optional metrics",
 "C17": "JoinIter stack machine; pending-list invariant over pairs; any filter, then lawful filters",
 "C18": "LeftJoinIter with both stacks; invariant relating left position, right stack and pruned nodes",
 "C19": "invariant of reachable trees; also the crate's own debug assertion as a function that cannot fail",
 "C20": "invariant of reachable trees for min/max children; root exempted; crate's own assertion",
 "C21": "counterexample for the largest minimum; partial: fill min-1; the exact guaranteed fill for every configuration",
 "C22": "all leaves at the root's level; height bounded by logarithm of the number of entries",
 "C23": "no `Panic` outcome for any supported configuration; exact set of panic-free configurations for i32 points (MinOne.v, Wide.v)",
 "C24": "counterexample; for every tree type with enough keys; partial: histories without removal",
 "C25": "no `UB` outcome: union fields, uninitialised memory, for every history and call",
 "C26": "clone is equal; later histories on either do not affect the other (value model; buffers not shared by C27_buffers_live_and_not_shared)",
 "C27": "MemModel.v: every vector has a buffer number, every destructor is logged; what was given or cloned = what is returned, stored or destroyed, as multisets, at every point of every program over any number of trees",
 "C28": "FCVecModel.v: cells that may be uninitialised, ptr::read/write/copy; refinement to bounded lists for all call sequences",
 "C29": "RcMutModel.v: heap of boxes with a shared flag, arbitrary interleaving of allocator and references; then the left join over it, with inner iterators used in any order",
 "C30": "boxes over any total order; induction on the dimension",
 "C31": "as C30",
 "C32": "counterexample; partial: the exact meaning of the implemented test",
 "C33": "C10 with C31",
 "C34": "counterexample; partial as C32",
 "C35": "integer coordinates without overflow; exact squared distance; composition with C13",
 "C36": "reals; infimum of distances of points",
 "C37": "slab test over numbers with infinities/NaN and an arbitrary rounding; exact arithmetic, then f64 (Flocq) error analysis for i32; counterexamples for rounding and overflow",
 "C38": "as C37, three counterexamples; exact characterisation",
 "C39": "sphere test in f64 over i32; three counterexamples; exact below 94906265",
 "C40": "counterexample (inverted boxes); partial: valid boxes",
 "C41": "splitter for every volume function: permutation, exact unions, sizes",
 "C42": "selector: least volume increase, first such; the descent of insert follows it",
 "C43": "byte addresses in IntoIter: proved for size > 0, refuted for size 0",
 "C44": "counterexample; partial: what the seeds are",
 "C45": "checked arithmetic; refuted for the empty tree; partial: all other trees without overflowing coordinates; SearchProof.v: the whole search session with a ranking that panics on overflow",
 "C46": "Layout of zero bytes: refuted; exact condition",
 "C47": "sq_dist_to over i32 in f64: refuted when a coordinate difference overflows; exact otherwise; distance joins",
 "C48": "CrashModel.v: any call of user code may unwind, destructors of locals run, the program goes on; no UB for max_children <> 1 or bounds without destructor",
 "C49": "every call: effect on the tree, on everything owned, and on all other trees, whether or not it panics",
 "C50": "counterexample; partial",
 "C51": "counterexample; partial",
 "C52": "counterexample; partial",
 "C53": "counterexample; partial",
 "C54": "LayoutModel.v: layouts as size and alignment, a heap of blocks that remembers the layout of each; `ldealloc` is undefined for any other layout. Invariant: distinct owners own distinct live blocks of the layout they will be given back with; induction over the requests and returns.",
 "C55": "CheckModel.v: the functions of Model.v in a writer-and-panic monad that records every call of union, volume and volume subtraction and may fail there. CheckProof.v: simulation (equal outcome, or panic and something asked for does not fit); invariant 'bounds of every non-root node lie in the window' through rel_win; CheckI32.v: products of at most D factors of 2^k are finite (Flocq). Refutations by computation.",
 "C56": "CheckModel.v, CostProof.v: sums of the recorded calls, by induction over the tree; a split of n elements takes at most 5 n^2; re-inserted entries are at most (min_children - 1) per level. Logarithms from C22.",
 "C57": "FpModel.v: NoisyFloat over SpecFloat (any format), its Ord/Eq/Bounded and the volume of boxes. FpSpec.v: the extended real a float stands for. FpProof.v: comparisons agree with the order of the extended reals (Flocq for the finite part), hence order_laws, hence the laws of boxes and the general theorems C02, C03, C05, C33 apply.",
 "C58": "FpProof.v: rel_least (the bounds are the least box above the empty box and every key) is closed under what the tree does, for any total order; finite floats lie between MIN and MAX. Refutations by computation.",
 "C59": "FpDist.v: SpecFloat's operations are Flocq's; values of sub, square, sum of non-negative numbers as roundings in the extended reals; monotonicity of each; the clamped point is nearer in every coordinate; so EuclideanDistanceRanking is lawful and C13's proof applies.",
 "C60": "FpDist.v: error bounds of the roundings (Flocq's relative error lemmas; sums and differences do not underflow) composed by induction over the dimensions. Refutation: a computed tree of two points.",
 "C61": "PropFilter.v: each adaptor is shown to be a lawful filter (filter_lawful) under the stated law of the space; then C10.",
 "C62": "FxModel.v: the iterators with callbacks W -> x -> option bool * W (None: panic). FxSpec.v: a search is a forest of questions; explore says which logs and results a depth-first walk can have. FxProof.v: each call of next consumes a prefix of the iterator's agenda.",
 "C63": "From C62 and lawfulness: explore_faithful (FxProof.v) by induction on the exploration.",
 "C64": "FxSortedModel.v: the ordered iterators with rankings W -> x -> option (option M) * W. FxSortedSpec.v: best_first. Each call of next is a prefix of a best-first search (FxSortedProof.v); counting and laziness by induction on best_first (FxSortedLaw.v).",
 "C65": "Partial from C64's best_first with truthful answers (bf_lawful, FxSortedLaw.v); refuted by computation on the sample tree.",
 "C66": "FxLeftModel.v: LeftJoinIter with callbacks W -> .. -> option _ * W. FxLeftSpec.v: left_walk, prune. Invariant over the two stacks preserved by every call, also by one that unwinds (FxLeftProof.v).",
 "C67": "The same invariant with 'the matches among the remaining right entries are the matches in the right tree' for prune; then C62's exploration of the right stack.",
 "C68": "PropSpace.v: node_count; induction over levels from C20/C21's fill bounds, and from 'some node at every level is wide' (Wide.v) for large minima; for min_children = 0 a history that fills and empties the tree while remove keeps every node.",
 "C69": "UModel.v (w-bit unsigned integers), UProof.v: every box that occurs is a union of keys, hence min <= max, its extents are in range and its volume is a finite double; CheckRun.v's simulation then shows the recorded checks never fail.",
 "C70": "UDist.v: iff-characterisation of the checked distance; SearchProof.v runs the search; spheres through Flocq as in SphereProof.v, with differences taken modulo 2^w; refutations on concrete trees.",
 "C71": "DebugModel.v models the Debug impls on top of the builders of core::fmt (strings, PadAdapter, early stop on error); DebugProof.v: calls made by induction on levels; a parsing argument for injectivity, with decimal i32 from the standard library.",
 "C72": "DtorModel.v: dropping a tree with destructors that may panic, drop glue and aborts; programs around it (zrun). DtorProof.v: units destroyed in order, composed along the recursion; the ownership invariant of C48 for whole programs.",
 "C73": "As C72; a concrete tree refutes it, and the exact leak is the units after the panicking one.",
 "C74": "FpSphereModel.v instantiates the sphere model with the float operators. FpSphereProof.v: conversion to f64 is exact, error of the rounded sum of squares (as C60), the rounded box contains every point truly inside by monotonicity of rounding, and a filter finds every entry that its test accepts and whose containing boxes it does not prune.",
 "C75": "FpSegModel.v instantiates the segment model with the float operators. FpSegProof.v: the test as a list of conditions on pairs of rounded quotients; rounding is monotone, so a larger box has a wider pair on every axis (line_grows_x) and pruning loses nothing; relative error of subtraction, inverse and product, so each side is moved by at most kappa times its distance.",
 "C76": "As C75, with the fold that starts from the first axis (ray_fold), where a 0/0 makes the test fail.",
 "C77": "LenModel.v adds the square root (SFsqrt of the standard library). LenProof.v: SFsqrt is Flocq's Bsqrt; the square root of a double never underflows, so its error is relative; sums of squares of integers have only relative errors (relx), sums of squares of floats as in C74 (approx2).",
 "C78": "WildModel.v repeats the tree operations of CrashModel.v with the parameters replaced by an oracle (group number, call number) -> answers, and a crash flag per group. WildSpec.v: effects with evidence that user code said two keys are equal. WildProof/WildTree/WildUnique/WildOps/WildForest: the ownership specifications of C48-C53 without a reference model, extended by call numbers and by fill bounds that hold if nothing panics (np).",
 "C79": "HeapModel.v: the ordered iterators of FxSortedModel.v over a heap whose operations see and change the outside state, may panic and keep no order. HeapSpec.v: any_first, a search that takes what waits in any order and, if lossy, may lose some. HeapProof.v: the invariant is that every item in the heap has the kind its level says, which no comparison result can change.",
 "C80": "VolSpec.v: side lengths and their product over the reals, and the rounding of a floating-point operation. VolProof.v: a product of non-negative doubles is monotone and finite below a finite one; integer products are exact below 2^53 and otherwise accurate to (1 + 2^-53)^(D-1) - 1. Differences: i32 wraps (narrow boxes), unsigned never wraps for valid boxes, floats round. Refutations by computation on concrete boxes.",
 "C81": "SplitSpec.v: an inductive relation that distributes a bag of elements over two groups, round by round, without arrays or indices; parameterised by when a group claims all that remain. HeurProof.v: the loop over the array refines it (the min_by of the code returns a least element; swaps and swap_remove are permutations). VolLaws.v: volumes of integer boxes are finite doubles even when they wrap, so volumes and their differences are totally preordered. Refutation by inversion of the relation on five points.",
 "C82": "FpCheckSpec.v: when the assertions of the float type in Volume::volume and in differences of volumes hold; CheckModel.v runs the tree with these checks. FpCheckProof.v: unions of boxes with small coordinates have small coordinates, sides at most 2^(k+1) (Flocq: rounding is monotone), products stay below the overflow limit of f64; hence all volumes are finite. Refutations by computation.",
 "C83": "VecModel.v: the operators as loops over indices with scalar operators that may panic; statements in terms of the list of coordinates (nth_error). Induction on the dimension.",
 "C84": "Indep.v: every call of a tree is a step of an abstract multiset of entries; two abstract runs with the same calls stay permutations of each other (unique keys) or agree on the number of entries per key. Induction on the history.",
 "C85": "SintModel.v: the signed type of w bits and a sign, arithmetic wrapping or checked. SintProof.v shows that it meets the laws the generic theorems need (integers, checked integers, volumes with sides below 2^w); PropSint.v draws the consequences, the window theorems by the invariant that all bounds of a reachable tree lie in the window.",
 "C86": "InitModel.v: memory whose slots may be unwritten, the guard of init_into with its destructor, map_into, Drop of a stack; InitProof.v by induction on the slots, and an invariant of the left join (the length of its right-hand stack). It also shows that remainder_stack of LeftJoinModel.v is what map_into computes."
}