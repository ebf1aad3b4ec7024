# Formal model of rusty-rtree in Rocq (Coq 8.16.1)

The plan was written before the proofs; this file is kept current as the model grows. Sections: approach, trusted base,
what is modelled and what is not, the properties, the files, how to check.

## 1. Approach

* The tree core (`node.rs`, `split.rs`, `select.rs`, `util.rs`, `lib.rs`) is modelled as executable Gallina functions over
  lists. `&mut` becomes "returns the new value".
* Every function that can panic or reach undefined behaviour returns `res A = Ok a | Panic | UB | OutOfFuel`. Reading the
  `NodeChildren` union (or the unions in the iterators) as the wrong kind is `UB`; `panic!`, `unwrap()` of `None`,
  `unreachable!()`, slice index out of range are `Panic`. Loops that are not structurally recursive get fuel computed from
  their state, and theorems exclude `OutOfFuel`.
* Levels are passed exactly as in the code (nodes do not store them), and recursion is on the level.
* Bounds, volume, key equality and key bounds are a record of operations (`Params`); theorems are universally quantified
  over it, with laws as explicit hypotheses (`Spec.v`), and the laws are proved for the boxes the crate provides (any
  dimension, `i32` coordinates). Nothing is assumed about volumes anywhere in the structural theorems: they hold for
  every volume function and every result of a comparison of volumes, so `f64` rounding, infinities and NaN are covered.
* "Reachable" is: produced by any finite history of calls on a new tree with any configuration.
* Iterators are the stack machines (or heaps) they are in the code. `iterates next s l` says: however often `next` is
  called, the answers are the elements of `l` in order and then `None` for ever, with no panic and no UB.
* `BinaryHeap` is any priority queue satisfying its documented contract (`SortedModel.v`); a concrete one is built to show
  that the contract can be met.
* Four layers of memory model: `FCVecModel.v` (raw cells of one vector), `RcMutModel.v` (boxes shared between an allocator
  and references), `MemModel.v` (the tree operations again, with numbered buffers and a log of destructors, no unwinding)
  and `CrashModel.v` (the same with unwinding panics at every call of user code). `C27_agrees_with_plain_model` and
  `C49_agrees_without_panics` tie the upper layers to `Model.v`; `C28_tree_model_uses_this_list` ties `FCVecModel.v` to the
  list operations used by `Model.v`.
* `CheckModel.v` is Model.v once more with every union, volume and volume subtraction recorded, and panicking where a build
  with overflow checks and debug assertions panics; `C56_counts_the_model` ties it to Model.v.
* `FxModel.v`, `FxSortedModel.v` and `FxLeftModel.v` are the iterators and joins once more with callbacks that have state and may panic; the outcome of `next` is
  `Yield`, `Done` or `Panicked`, and the iterator left behind by a panic is part of the result.
* Geometry: boxes over any total order (`order_laws`); coordinates are `i32`, in `UModel.v` unsigned (`u8`, `u16`, `u32`) and in `SintModel.v` signed (`i8`, `i16`, `i32`) integers of any width, or, in `FpModel.v`, floats of any format without NaN
  (`N64`, `N32`); `f64` is `Coq.Floats.SpecFloat` (pure Gallina binary64), related to the reals
  through Flocq; statements about distances, segments, rays and spheres are over the reals.
* A property that the code violates is not weakened silently: it stays in `properties.jsonl` as a user would state it, a
  theorem `..._refuted` proves its negation on a concrete reachable case, and `..._partial` theorems prove what does hold.

## 2. Trusted base

* Coq 8.16.1's kernel (with its `vm_compute` conversion, used for closed computations), the OCaml runtime, and the build
  scripts. No plugins, no axioms of our own, no switched-off check, no `Admitted`.
* `Print Assumptions` is run after every theorem in the `Prop*.v` files and appears in the build log.
  * Closed under the global context: every theorem of PropCore, PropCrash, PropDist, PropDrop, PropGeom, PropIter,
    PropJoin, PropMem, PropRc, PropSorted and the later Prop files unless listed below.
  * PropFloat (C36, C47), PropSeg (C37, C38), PropSphere (C39), PropFp, PropFpDist, PropFpSphere, PropFpSeg, PropFpRay, PropLen, PropVolume, PropFpCheck (C57-C60, C74-C77, C80, C82), PropSplit, PropFpSplit (the instances of C42, C44, C81 for numbers), PropSint (C85, except the query theorems), PropUnsigned (C69, the sphere theorems of C70) and those of the theorems of later files that speak about real
    numbers list the axioms of the standard library's real numbers:
    `ClassicalDedekindReals.sig_forall_dec`, `ClassicalDedekindReals.sig_not_dec`,
    `FunctionalExtensionality.functional_extensionality_dep` and (through Flocq) `Classical_Prop.classic`.
* The translation from Rust to Gallina is by hand. Each definition of the `*Model.v` files cites the lines it models.
* Contracts of `std` that are assumed by the model (they are part of its definitions, not axioms): `slice::iter`,
  `Vec`/`Box` ownership, `Iterator::{min_by, min_by_key, position, rposition, find, reduce, zip}`, `BinaryHeap`
  (push/pop with respect to `Ord`), `Layout::{array, extend, pad_to_align}`, `alloc::{alloc, dealloc}` returning fresh memory;
  `noisy_float::N64` comparisons as read from its source documentation; `num_traits::Bounded` for `i32`.

## 3. What is modelled, file by file

| file | modelled | not modelled |
|------|----------|--------------|
| `lib.rs` | configuration, `new`, `insert`, `insert_unique`, `get`, `get_mut`, `remove`, `len`, `is_empty`, `clone`, all iterator constructors, joins, `min_by`/`filter_min_by`, debug assertions (BVH, fill, equality), `Debug`, drop | `&RTree`/`&mut RTree::into_iter` are `iter`/`iter_mut` |
| `node.rs` | all tree algorithms, union access by level, ownership moves (`ptr::read`, `mem::forget`, `leak`, `wrap`), destructors, clone, `Debug` of nodes | `Debug` of the children containers (unused by the API); accessors `level`, `node`, `borrow`, ... are identities in the model |
| `split.rs`, `select.rs`, `util.rs` | completely (any volume function, and `f64` for `i32` boxes) | `empty_slice` (a dangling slice of length 0) |
| `fc_vec.rs` | raw memory of a vector, all operations, `IntoIter` by byte address, `Layout::array` of zero bytes | `Debug`, `PartialEq`; alignment of addresses |
| `iter_stack.rs` | the stack, union access, sub-stack views, `map_into`; byte layouts of its allocations (LayoutModel.v) | `IterStack::map` (dead code), `Debug` |
| `iter.rs` | all ten iterators | `ExactSizeIterator`-style hints (there are none) |
| `join.rs`, `left_join.rs` | completely, the latter also over the `RcMut` heap | |
| `rc_mut.rs` | heap of boxes, `shared` flag, allocator, references, in any interleaving; layouts (LayoutModel.v) | stacked-borrows aliasing rules |
| `filter.rs`, `contains.rs`, `intersects.rs`, `ranking.rs`, `bounds.rs`, `vector.rs`, `geom/*` | completely over `i32`, exact arithmetic, unsigned integers and floats, `f64` parameters as IEEE doubles | `SVec` `AddAssign`/`Index`; the panics of `volume` and `sq_dist_to` in dimension 0 |

Also not modelled: running out of memory (`handle_alloc_error` aborts), `usize` overflow of lengths (a vector of 2^63
elements cannot exist), destructors that panic other than those run by dropping a tree (`DtorModel.v`), the order in which the locals of one scope are destroyed, threads (the
crate's only `unsafe impl Send/Sync` are those of `FCVec<T>`, conditional on `T`; it has no interior mutability outside `rc_mut.rs`, whose types are not shared between
threads).

## 4. Properties

@@TABLE@@

## 5. Files (`rocq/theories`)

* Vocabulary of the statements, independent of the model's helpers: `Spec.v`, `IterSpec.v`, `GeomSpec.v`, `DistSpec.v`, `RealSpec.v`,
  `SegSpec.v`, `FCVecSpec.v`, `RcMutSpec.v`, `MemSpec.v`, `CrashSpec.v`, `CheckSpec.v`, `FpSpec.v`, `FxSpec.v`, `FxSortedSpec.v`, `FxLeftSpec.v`, `SearchSpec.v`, `USpec.v`, `DebugSpec.v`, `DtorSpec.v`, `LenSpec.v`, `WildSpec.v`, `HeapSpec.v`, `VolSpec.v`, `SplitSpec.v`, `FpCheckSpec.v`, `IndepSpec.v`, `SintSpec.v`, `InitSpec.v`.
* Models: `Base.v`, `Model.v`, `IterModel.v`, `SortedModel.v`, `JoinModel.v`, `LeftJoinModel.v`, `GeomModel.v`, `DistModel.v`, `SegModel.v`,
  `SphereModel.v`, `FCVecModel.v`, `RcMutModel.v`, `MemModel.v`, `CrashModel.v` and the later `*Model.v`.
* Theorems: `Prop*.v`. Beside each theorem an `Example` shows a concrete non-trivial case meeting its hypotheses.
* Everything else is proof.

## 6. Mutation testing

`seeded/LOG.jsonl`: one line per seeded bug (definition, edit, claim it breaks, theorems that failed, theorems tightened).

## 7. Checking

`cd rocq && coq_makefile -f _CoqProject -o Makefile && make -j4`; `tools/manifest.py` regenerates `MANIFEST.json` from the theorem names.
