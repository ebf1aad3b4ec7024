{"id": "C01", "title": "insert adds exactly one entry", "statement": "After insert(k,v) on any tree, iterating the tree yields exactly the entries it yielded before plus one (k,v), as a multiset: nothing is lost, duplicated or altered, whatever nodes are split on the way.", "quantifier": "every configuration with max_children>=2, every history of operations before the insert, every key and value, every bounds type and every volume function", "why_tests_cant": "splits, propagation of splits and growth of the root depend on the whole insertion history; tests see a few seeds", "anchors": ["src/lib.rs:RTree::insert", "src/node.rs:NodeRefMut::insert", "src/node.rs:NodeRefMut::self_insert", "src/node.rs:NodeContainer::branch", "src/split.rs:QuadraticSplitter::split"]}
{"id": "C02", "title": "get finds the first entry with an equal key", "statement": "get(q) returns the value of the first entry in iteration order whose key equals q, and None exactly when no stored key equals q; pruning by bounds never hides a stored key.", "quantifier": "every history, every query key, every lawful bounds type", "why_tests_cant": "a missed entry needs one particular tree shape and key", "anchors": ["src/lib.rs:RTree::get", "src/node.rs:NodeRef::get"]}
{"id": "C03", "title": "remove removes exactly one equal entry", "statement": "remove(q) returns Some exactly when an entry with a key equal to q is stored; then exactly one such entry disappears, its value is returned, and every other entry survives as a multiset (also through underfull nodes, re-insertion and root collapse); when it returns None the tree is unchanged.", "quantifier": "every history under a supported configuration, every query key", "why_tests_cant": "condensation and reinsertion are triggered only by particular shapes; loss of one entry in a cascade is invisible to small tests", "anchors": ["src/lib.rs:RTree::remove", "src/node.rs:NodeRefMut::remove", "src/node.rs:NodeContainer::remove", "src/node.rs:NodeContainer::try_unbranch"]}
{"id": "C04", "title": "remove takes the first of several equal entries", "statement": "The documentation of remove says that if multiple entries with the same key exist the first entry is removed, so remove(q) should return what get(q) returned just before.", "quantifier": "every history with duplicate keys", "why_tests_cant": "depends on the relative position of duplicates in the tree", "anchors": ["src/lib.rs:RTree::remove", "src/node.rs:NodeRefMut::remove"]}
{"id": "C05", "title": "insert_unique replaces the first equal entry or inserts", "statement": "insert_unique(k,v): if an entry with an equal key is stored, the value of the first such entry in iteration order is replaced in place, the previous value is returned, and nothing else changes (the stored key object is kept, entry order is unchanged); otherwise None is returned and exactly (k,v) is added.", "quantifier": "every history, every key and value", "why_tests_cant": "the only/none/multiple case analysis over overlapping children depends on the tree shape", "anchors": ["src/lib.rs:RTree::insert_unique", "src/node.rs:NodeRefMut::insert_unique", "src/util.rs:get_only"]}
{"id": "C06", "title": "insert_unique and remove give a map", "statement": "A tree changed only through insert_unique, remove, get_mut and the mutable iterators never holds two entries with equal keys, and every output (previous value, removed value, get) is that of a finite map.", "quantifier": "every history over these operations, every lawful key type, supported configurations", "why_tests_cant": "a map refinement is a statement about all histories", "anchors": ["src/lib.rs:RTree::insert_unique", "src/lib.rs:RTree::remove", "src/lib.rs:RTree::get"]}
{"id": "C07", "title": "len counts entries, is_empty is len = 0", "statement": "len() is the number of entries the tree iterates over, and is_empty() is true exactly when len() is 0.", "quantifier": "every history, every configuration with min_children >= 1", "why_tests_cant": "is_empty looks only at the root; agreement with len is an invariant over histories", "anchors": ["src/lib.rs:RTree::len", "src/lib.rs:RTree::is_empty", "src/node.rs:NodeRef::len", "src/node.rs:NodeRef::is_empty"]}
{"id": "C08", "title": "is_empty agrees with len also for min_children = 0", "statement": "is_empty() is true exactly when len() is 0 also when min_children is 0.", "quantifier": "every history with min_children = 0", "why_tests_cant": "needs a configuration no test uses", "anchors": ["src/lib.rs:RTree::is_empty", "src/node.rs:NodeRef::is_empty"]}
{"id": "C09", "title": "iter yields every entry exactly once", "statement": "Running iter() to its end yields every stored entry exactly once, in the same order on every run, and after None it keeps returning None; the iterator never reads a node as the wrong kind and always terminates.", "quantifier": "every tree reachable by any history", "why_tests_cant": "the iterator is a hand-written stack machine over uninitialised-union slots; termination and exactness are claims about every shape", "anchors": ["src/lib.rs:RTree::iter", "src/iter.rs:Iter::new", "src/iter.rs:Iter::next", "src/iter_stack.rs:IterStack"]}
{"id": "C10", "title": "filter_iter yields exactly the matching entries", "statement": "filter_iter(f) yields, in iteration order, exactly the entries whose key passes f.test_key, each once, provided f.test_bounds accepts every bounds containing a matching key; for an arbitrary filter it never yields a non-matching entry nor one entry twice.", "quantifier": "every history, every filter, every key", "why_tests_cant": "pruning errors show only for particular positions of keys relative to bounds", "anchors": ["src/lib.rs:RTree::filter_iter", "src/iter.rs:FilterIter::new", "src/filter.rs:SpatialFilter"]}
{"id": "C11", "title": "mutable iterators hand out each value once", "statement": "iter_mut and filter_iter_mut hand out a mutable reference to each (matching) entry's value exactly once (never two references to one value); writing through them changes just those values and leaves all keys, bounds and the tree structure unchanged.", "quantifier": "every history, every filter, every update function", "why_tests_cant": "aliasing of mutable references is undefined behaviour that a test run does not notice", "anchors": ["src/lib.rs:RTree::iter_mut", "src/lib.rs:RTree::filter_iter_mut", "src/iter.rs:IterMut::next"]}
{"id": "C12", "title": "get_mut addresses the entry that get finds", "statement": "get_mut(q) refers to exactly the value get(q) returns; writing through it makes get(q) return the new value and changes no other entry, no key and no structure.", "quantifier": "every history, every query key, every written value", "why_tests_cant": "two separately written lookups must agree on all trees", "anchors": ["src/lib.rs:RTree::get_mut", "src/node.rs:NodeRefMut::into_get_mut", "src/node.rs:NodeRefMut::get_mut"]}
{"id": "C13", "title": "iter_asc_by is complete and ascending", "statement": "iter_asc_by(r) yields every entry exactly once in ascending order of r.rank_key, for every ranking whose bounds_min is a lower bound for the keys inside the bounds, whatever order the heap returns equal elements in.", "quantifier": "every history, every lawful ranking, every tie-breaking of the priority queue", "why_tests_cant": "order errors need a particular mixture of node bounds and key metrics", "anchors": ["src/lib.rs:RTree::iter_asc_by", "src/iter.rs:SortedIter", "src/ranking.rs:Ranking"]}
{"id": "C14", "title": "min_by returns a minimal entry", "statement": "min_by(r) returns an entry of minimal rank, and None exactly when the tree has no entry; filter_min_by returns a minimal entry among those with a rank and None exactly when there is none.", "quantifier": "every history, every lawful ranking", "why_tests_cant": "minimality over all entries of all trees", "anchors": ["src/lib.rs:RTree::min_by", "src/lib.rs:RTree::filter_min_by"]}
{"id": "C15", "title": "min_by returns the first of several minimal entries", "statement": "The documentation of min_by says that among several minimal entries the first entry is returned.", "quantifier": "every history, every lawful ranking with ties", "why_tests_cant": "needs ties across nodes with different lower bounds", "anchors": ["src/lib.rs:RTree::min_by", "src/iter.rs:SortedIter::next"]}
{"id": "C16", "title": "filter_iter_asc_by is complete and ascending on ranked entries", "statement": "filter_iter_asc_by(r) yields exactly the entries whose rank is Some, each once, in ascending order of rank.", "quantifier": "every history, every ranking with optional metric whose bounds_min is None only if no key inside has a rank and is otherwise a lower bound of the ranks inside", "why_tests_cant": "as C13, with pruning", "anchors": ["src/lib.rs:RTree::filter_iter_asc_by", "src/iter.rs:FilterSortedIter"]}
{"id": "C17", "title": "join yields exactly the matching pairs", "statement": "a.join(b,f) yields exactly the pairs of an entry of a and an entry of b whose keys pass f.test_key, each pair once, whatever the heights of the two trees; it terminates and never reads a node as the wrong kind.", "quantifier": "every pair of trees (any heights), every join filter whose test_bounds accepts every pair of bounds containing a matching pair", "why_tests_cant": "the padding arithmetic for different heights has one case per pair of heights", "anchors": ["src/lib.rs:RTree::join", "src/join.rs:JoinIter"]}
{"id": "C18", "title": "left_join yields every left entry with exactly its matches", "statement": "a.left_join(b,f) yields every entry of a exactly once, in a's iteration order, each with an iterator that yields exactly the entries of b whose key matches it, each once; entries without a match are yielded with an empty iterator.", "quantifier": "every pair of trees (any heights), every lawful join filter", "why_tests_cant": "the rewinding of the right stack depends on both shapes and heights", "anchors": ["src/lib.rs:RTree::left_join", "src/left_join.rs:LeftJoinIter"]}
{"id": "C19", "title": "bounding volume hierarchy", "statement": "In every reachable tree the bounds of every node contain the bounds of every key below it; for bounds whose union is a semilattice (the provided axis-aligned boxes) they equal the union of the children's bounds.", "quantifier": "every history, every lawful bounds type", "why_tests_cant": "invariant over histories; the debug assertion is run on two seeds only", "anchors": ["src/node.rs:NodeRef::_debug_assert_bvh", "src/node.rs:NodeRefMut::insert", "src/node.rs:NodeRefMut::remove"]}
{"id": "C20", "title": "node fill", "statement": "In every reachable tree no node has more than max_children children, if 2*min_children <= max_children every non-root node has at least min_children children, and if max_children >= 2 and min_children is not 1 a non-leaf root has at least two.", "quantifier": "every history of every tree type; the minimum under 2*min_children<=max_children, the root part under max_children>=2 and min_children<>1", "why_tests_cant": "the split balance depends on volumes; invariant over histories", "anchors": ["src/lib.rs:RTreeConfig", "src/split.rs:QuadraticSplitter::split", "src/node.rs:NodeRef::_debug_assert_min_children"]}
{"id": "C21", "title": "minimum fill for the largest splittable minimum", "statement": "Splitting max_children+1 entries can give both halves min_children entries as long as 2*min_children <= max_children+1, so minimum fill should also hold when 2*min_children = max_children+1.", "quantifier": "every configuration with 2*min_children = max_children+1", "why_tests_cant": "an off-by-one visible only for this ratio and an adverse volume order", "anchors": ["src/split.rs:QuadraticSplitter::split"]}
{"id": "C22", "title": "uniform depth and logarithmic height", "statement": "In every reachable tree all leaves are at the same depth, the recorded height, and a tree of height h>=1 holds at least 2*m^h entries, where m = min(min_children, max_children-min_children) is the fill a split can guarantee (m = min_children when 2*min_children <= max_children), so lookups descend a logarithmic number of levels.", "quantifier": "every history with max_children>=2, min_children<>1", "why_tests_cant": "invariant over histories", "anchors": ["src/node.rs:Node", "src/node.rs:NodeContainer"]}
{"id": "C23", "title": "no panic", "statement": "No operation of the tree panics: inserting never panics for max_children>=2 (any min_children), and no history of insert, insert_unique, remove, get, get_mut and iteration panics if additionally min_children is not 1; these conditions are exact: outside them some history panics.", "quantifier": "every history under these configurations, every key, value and volume function", "why_tests_cant": "panics sit in unreachable!(), unwrap() and level checks whose reachability depends on the history", "anchors": ["src/node.rs:NodeRefMut::insert", "src/node.rs:NodeContainer::branch", "src/node.rs:InnerNodeChildrenRefMut::try_push", "src/split.rs:split"]}
{"id": "C24", "title": "min_children = 1 is usable", "statement": "With min_children = 1 and max_children >= 2 no sequence of inserts and removes panics.", "quantifier": "every history with min_children = 1", "why_tests_cant": "needs removing almost everything from a tree of height two", "anchors": ["src/node.rs:NodeContainer::try_unbranch", "src/node.rs:NodeRefMut::insert"]}
{"id": "C25", "title": "node storage is never read as the wrong kind", "statement": "No sequence of safe API calls makes the library read a leaf's storage as an inner node or the reverse (undefined behaviour through the children union), for any configuration, including those in which an operation panics.", "quantifier": "every configuration, every history, every key, bounds, filter and ranking (lawful or not)", "why_tests_cant": "undefined behaviour is not observable by tests in general", "anchors": ["src/node.rs:NodeChildren", "src/node.rs:NodeRef::children", "src/node.rs:Alloc::wrap_children", "src/iter.rs"]}
{"id": "C26", "title": "clone is an equal, independent tree", "statement": "clone() gives a tree with the same configuration, the same height, the same bounds and the same entries in the same order; later operations on either do not affect the other.", "quantifier": "every history, every later history on both", "why_tests_cant": "all shapes; independence is about all later operations", "anchors": ["src/node.rs:NodeContainer::clone", "src/node.rs:Alloc::clone_node", "src/fc_vec.rs:Alloc::clone"]}
{"id": "C27", "title": "every key and value is dropped exactly once", "statement": "Over any history, each key and each value handed to the tree is, in the end, either returned to the caller or dropped exactly once: dropping a tree drops every stored entry exactly once, and the operations in between neither leak nor duplicate one.", "quantifier": "every history followed by drop", "why_tests_cant": "drop counts in one test cover one history", "anchors": ["src/node.rs:NodeRefMut::drop", "src/node.rs:InnerNodeChildrenRefMut::drop", "src/fc_vec.rs:FCVecRefMut::drop", "src/lib.rs:tests::test_drop"]}
{"id": "C28", "title": "the fixed-capacity vector is a memory-safe list", "statement": "Every operation of the fixed-capacity vector behind each node (push, try_push, insert, remove, swap_remove, swap, pop, clone, into_iter from both ends, drop) behaves as the corresponding list operation, never accesses memory outside its buffer or an uninitialised cell, panics exactly on the documented conditions, and on drop releases each element once and the buffer once.", "quantifier": "every element size and capacity whose product is positive and allocatable (see C46), every sequence of operations, every element", "why_tests_cant": "memory errors are not observable by tests in general", "anchors": ["src/fc_vec.rs:FCVecRefMut", "src/fc_vec.rs:IntoIter"]}
{"id": "C29", "title": "inner iterators of left_join never share memory", "statement": "The right-hand iterators of a left join can be kept, advanced and dropped in any order while the join advances: two live ones never share storage, storage is never freed twice nor used after being freed, and all of it is freed in the end.", "quantifier": "every interleaving of advancing the join, using the inner iterators and dropping any of them", "why_tests_cant": "a one-bit ownership protocol; a race of drops is a schedule", "anchors": ["src/rc_mut.rs:RcMutAlloc", "src/rc_mut.rs:RcMut", "src/left_join.rs:LeftJoinIter::next"]}
{"id": "C30", "title": "union of boxes is the least upper bound", "statement": "The union of two axis-aligned boxes contains both and is contained in every box containing both; it is commutative, associative and idempotent, the empty box is its identity, and union_all contains every member and is the least such box.", "quantifier": "every dimension and every pair or collection of boxes of totally ordered coordinates", "why_tests_cant": "infinitely many boxes", "anchors": ["src/bounds.rs:AABB::union", "src/bounds.rs:AABB::union_all", "src/bounds.rs:AABB::empty", "src/vector.rs:SVec"]}
{"id": "C31", "title": "box intersection is geometric", "statement": "Two non-empty boxes intersect according to the library exactly when they share a point; the test is symmetric; box.intersects(point) holds exactly when the point lies in the box.", "quantifier": "every dimension, every pair of boxes and points", "why_tests_cant": "boundary cases in every dimension", "anchors": ["src/bounds.rs:Intersects<AABB<V>>", "src/bounds.rs:Intersects<V>"]}
{"id": "C32", "title": "box containment is geometric", "statement": "box.contains(other) holds exactly when every point of other lies in box, box.contains(point) exactly when the point lies in the box, and point.intersects(box) agrees with box.intersects(point).", "quantifier": "every dimension, every pair", "why_tests_cant": "needs a proper overlap or an interior point", "anchors": ["src/bounds.rs:Contains<V> for AABB<V>", "src/bounds.rs:Contains<AABB<V>> for AABB<V>", "src/vector.rs:Intersects<SAABB>"]}
{"id": "C33", "title": "box queries return exactly the overlapping entries", "statement": "filter_iter with IntersectsFilter or BoundedIntersectsFilter over a box returns exactly the entries whose box (or point) meets the query box, each once.", "quantifier": "every history of a tree of boxes or points, every dimension, every query box", "why_tests_cant": "end-to-end statement over all histories and boxes", "anchors": ["src/filter.rs:IntersectsFilter", "src/filter.rs:BoundedIntersectsFilter", "src/lib.rs:RTree::filter_iter"]}
{"id": "C34", "title": "contains queries return exactly the contained entries", "statement": "filter_iter with ContainsFilter or BoundedContainsFilter over a box returns exactly the entries whose box or point is contained in the query box.", "quantifier": "every history, every query box", "why_tests_cant": "needs a properly overlapping or interior key", "anchors": ["src/filter.rs:ContainsFilter", "src/filter.rs:BoundedContainsFilter"]}
{"id": "C35", "title": "nearest-neighbour search is exact", "statement": "With EuclideanDistanceRanking over point keys (exact arithmetic, no overflow) iter_asc_by yields entries in ascending squared distance to the query point and min_by an entry nearest to it; the box distance is the exact minimum over the points of the box.", "quantifier": "every history of a tree of points, every query point, every dimension", "why_tests_cant": "lower-bound property over all boxes and points", "anchors": ["src/ranking.rs:EuclideanDistanceRanking", "src/ranking.rs:PointDistance"]}
{"id": "C36", "title": "sq_dist_to is the squared distance of two boxes", "statement": "a.sq_dist_to(b) is the minimum of the squared distances between a point of a and a point of b (exact arithmetic) for non-empty boxes; hence a distance join filter built on it never prunes a matching pair.", "quantifier": "every dimension, every pair of non-empty boxes", "why_tests_cant": "all relative positions in all dimensions", "anchors": ["src/bounds.rs:SAABB::sq_dist_to"]}
{"id": "C37", "title": "segment/box test", "statement": "A line segment intersects a box according to the library exactly when some point of the segment lies in the closed box; and the bounds of a segment contain it.", "quantifier": "every dimension, every segment including axis-parallel and degenerate ones, every non-empty box", "why_tests_cant": "divisions by zero, NaN and boundary cases in each dimension", "anchors": ["src/intersects.rs:line_bounds_intersect", "src/geom/line.rs:Line"]}
{"id": "C38", "title": "ray/box test", "statement": "A ray intersects a box according to the library exactly when some point origin + t*n with t>=0 lies in the box.", "quantifier": "every dimension, every ray and non-empty box", "why_tests_cant": "boxes behind the origin, grazing rays and degenerate boxes", "anchors": ["src/intersects.rs:ray_bounds_intersect", "src/geom/ray.rs:Ray"]}
{"id": "C39", "title": "sphere queries", "statement": "The bounds of a sphere contain every point the sphere matches, so BoundedIntersectsFilter over a sphere returns exactly the points within the radius.", "quantifier": "every dimension, every sphere, every history of a tree of points", "why_tests_cant": "all positions", "anchors": ["src/geom/sphere.rs:Sphere", "src/filter.rs:BoundedIntersectsFilter"]}
{"id": "C40", "title": "every inserted key can be found again", "statement": "After insert(k,v), get(k) is not None, for every key, including boxes whose minimum exceeds their maximum.", "quantifier": "every history, every key", "why_tests_cant": "only unusual keys in a tree of height at least one fail", "anchors": ["src/lib.rs:RTree::get", "src/bounds.rs:Contains<AABB<V>>"]}
{"id": "C41", "title": "a split is a partition with exact bounds", "statement": "Splitting an overfull node distributes the existing children and the overflowing one over two non-empty groups of at most max_children elements, losing and duplicating none, and the bounds computed for each group contain every member (are the union of the members' bounds).", "quantifier": "every list of children, every bounds and volume function, every min_children", "why_tests_cant": "in-place swap/swap_remove partitioning over all volume orders", "anchors": ["src/split.rs:QuadraticSplitter::split", "src/split.rs:seed_split_groups", "src/split.rs:worst_combination"]}
{"id": "C42", "title": "insertion descends into a child of least volume increase", "statement": "At each level insertion descends into a child whose volume increase by the new key is minimal, and among these one of minimal volume, the first such child.", "quantifier": "every list of children, every key, every totally ordered volume", "why_tests_cant": "ties and order over all lists", "anchors": ["src/select.rs:MinimalVolumeIncreaseSelector"]}
{"id": "C43", "title": "consuming a node's vector yields all its elements", "statement": "Consuming the vector of a node (as remove does to re-insert the content of an underfull node) yields all its elements in order for every element size.", "quantifier": "every element size including zero, every length", "why_tests_cant": "zero-sized keys and values appear in no test", "anchors": ["src/fc_vec.rs:IntoIter"]}
{"id": "C44", "title": "split seeds are the pair of greatest joint volume", "statement": "The two seeds of a split are, among all pairs of the max_children+1 entries, a pair whose union has the greatest volume.", "quantifier": "every list of children with a totally ordered volume", "why_tests_cant": "needs an overflow entry far from a pair", "anchors": ["src/split.rs:worst_combination"]}
{"id": "C46", "title": "creating a node's storage is defined behaviour", "statement": "Creating a tree (or a node during a split) requests its storage from the allocator without undefined behaviour for every max_children and every entry type, including zero-sized keys and values and max_children = 0.", "quantifier": "every element size and every capacity", "why_tests_cant": "the zero-byte request is undefined behaviour that the usual allocators tolerate silently, so a test passes; the claim ranges over all sizes and capacities", "anchors": ["src/fc_vec.rs: Alloc::new_vec", "src/lib.rs: RTree::new"]}
{"id": "C45", "title": "nearest-neighbour search does not overflow in checked builds", "statement": "In a build with integer overflow checks, ascending-distance iteration and min_by over integer points do not panic when the squared distances from the query point to all stored keys fit the integer type.", "quantifier": "every reachable tree (including the empty tree), every query point, every dimension and signed integer type", "why_tests_cant": "the distance computed is to every node's bounding box and depends on tree shape; the empty tree's root bounds are the inverted extreme box", "anchors": ["src/ranking.rs: EuclideanDistanceRanking, PointDistance", "src/iter.rs: AscIter (sorted iteration)"]}
{"id": "C47", "title": "sq_dist_to on integer boxes in floating point", "statement": "For boxes with i32 coordinates, a.sq_dist_to(b) computed with f64 is the squared distance of the boxes (exactly, while it is at most 2^53), is zero exactly when they meet and never grows when the boxes grow, so a distance join or left join with radius r yields exactly the pairs of entries closer than r.", "quantifier": "every dimension, every pair of non-empty i32 boxes, every pair of reachable trees of boxes, every radius r with r*r <= 2^53", "why_tests_cant": "integer overflow of coordinate differences and rounding of squares and sums depend on the magnitude of coordinates; joins depend on the shape of both trees", "anchors": ["src/bounds.rs:SAABB::sq_dist_to", "src/join.rs:JoinIter", "src/left_join.rs:LeftJoinIter"]}
{"id": "C48", "title": "no undefined behaviour when user code panics", "statement": "Any program that makes, calls, clones and drops trees and catches every panic has no undefined behaviour, whichever calls of user code (bounds, volume, equality, borrow, clone) panic: no vector or stored bounds value is used after being destroyed or destroyed twice, and every key, value and vector is destroyed, given back, still stored or leaked, exactly once; only panicking calls leak.", "quantifier": "every program, every number of trees, every configuration, every subset of user-code calls that panics, bounds with and without destructors", "why_tests_cant": "the number of interleavings of panic points with tree shapes is unbounded, and double destruction is silent", "anchors": ["src/node.rs: NodeContainer::branch, NodeRefMut::insert/remove, Drop impls", "src/split.rs: QuadraticSplitter::split", "src/fc_vec.rs: Drop impls"]}
{"id": "C49", "title": "calls before and after caught panics do what they say", "statement": "In every state a program can reach with caught panics, a call that returns has exactly the documented effect on the entries and on no other tree; a call that panics does so because user code panicked in it or because the library panics on that tree anyway, and leaves in its tree only entries that were there or were being handed over; len, iteration, clone and destruction stay right on damaged trees.", "quantifier": "every program, every panic pattern, every tree; trees whose max_children is not 1 (or bounds without destructor)", "why_tests_cant": "damaged trees have stale bounds and empty nodes that no test of normal use produces", "anchors": ["src/node.rs: NodeRefMut::insert/insert_unique/remove/get_mut", "src/lib.rs: RTree methods"]}
{"id": "C50", "title": "a call that panics loses no stored entry", "statement": "If user code panics during a call and the panic is caught, every entry stored before the call is still stored, except one the call was to remove or replace.", "quantifier": "every program, every panic point", "why_tests_cant": "whether entries are in transit when the panic happens depends on splits and reinsertion", "anchors": ["src/split.rs: QuadraticSplitter::split", "src/node.rs: NodeContainer::branch, NodeContainer::remove"]}
{"id": "C51", "title": "stored keys are found after a caught panic", "statement": "After caught panics, get and get_mut find every key that iteration yields, and what they find is stored under a matching key.", "quantifier": "every program, every panic point, every key", "why_tests_cant": "stale bounds arise only from a panic between two particular lines", "anchors": ["src/node.rs: NodeRefMut::insert, NodeRef::get"]}
{"id": "C52", "title": "after a caught panic the library does not panic by itself", "statement": "In supported configurations, also after caught panics, a call panics only if user code panics during it.", "quantifier": "every program, every panic pattern", "why_tests_cant": "needs several panics at particular points", "anchors": ["src/node.rs: NodeRefMut::insert, NodeRefMut::remove", "src/select.rs"]}
{"id": "C53", "title": "a call that panics leaks nothing", "statement": "Everything allocated, cloned or handed over during a call that panics is destroyed, given back or still stored after the panic was caught.", "quantifier": "every program, every panic point", "why_tests_cant": "leaks are silent", "anchors": ["src/node.rs: Alloc::clone_children, NodeContainer::remove", "src/split.rs"]}
{"id": "C54", "title": "memory is given back with the layout it was requested with", "statement": "Every block of memory the crate requests (node vectors, iterator stacks, the boxes shared between trees and iterators) is given back to the allocator with exactly the size and alignment it was requested with, whoever gives it back; the two ways in which the size of a shared box is computed agree; and no block is given back twice or left over when its owners are gone.", "quantifier": "every element size and alignment, every capacity, every order of requests and returns", "why_tests_cant": "a wrong layout is silent with most allocators; depends on element sizes, alignments and on what Vec::with_capacity reserves", "anchors": ["src/fc_vec.rs: Alloc::new_vec, Alloc::drop, FCVec::drop", "src/rc_mut.rs: RcMutAlloc::box_layout, RcMutAlloc::drop, RcMut::drop", "src/iter_stack.rs: VecBoxBuilder, IterStack::new_box, IterStack::empty_box"]}
{"id": "C55", "title": "a build with overflow checks and debug assertions behaves like a release build", "statement": "With integer overflow checks and debug assertions switched on (the debug profile), every history of calls on a tree of i32 points or boxes returns what it returns in a release build; in particular it does not panic.", "quantifier": "every dimension, configuration, and history of calls with every key", "why_tests_cant": "the checks concern sums and products of coordinates of unions of arbitrary entries; tests run with small coordinates", "anchors": ["src/bounds.rs: Volume for SAABB", "src/select.rs: volume_increase_of_min_bounds", "src/split.rs: worst_combination, best_candidate_for_group"]}
{"id": "C56", "title": "insertion and removal take logarithmically many geometric operations", "statement": "An insertion makes at most a constant (depending on the configuration only) times the height of the tree many calls of union, volume and volume subtraction, a removal of an absent key none, a removal of a present key at most a constant times the square of the height; with at least two children per node the height is at most the logarithm of the number of entries. A split that returns makes an exact number of them, quadratic in the number of children, and an insertion that returns at least those that compare all children of the nodes on its way.", "quantifier": "every bounds and key type, configuration, reachable tree, key", "why_tests_cant": "a worst-case bound over all trees", "anchors": ["src/node.rs: NodeRefMut::insert, NodeRefMut::insert_unique, NodeRefMut::remove, NodeContainer::remove", "src/select.rs", "src/split.rs"]}
{"id": "C57", "title": "lookups and box queries are exact for floating-point coordinates", "statement": "On a tree whose coordinates are N64 or N32, including infinities and both zeros, get, insert_unique and remove find an entry exactly when a stored key has the same coordinates as numbers (0.0 and -0.0 are the same), and box queries yield exactly the entries whose points (or boxes) geometrically lie in (or meet) the query box, over the extended real numbers.", "quantifier": "every float format, dimension, configuration, volume function (so also NaN volumes of infinite boxes in a release build), history of calls and query", "why_tests_cant": "rounding, signed zeros, infinities and NaN volumes give rise to corner cases that need not occur in sampled data", "anchors": ["src/vector.rs: Vector for SVec", "src/bounds.rs: Bounds for AABB, Contains for AABB, Intersects for AABB", "src/lib.rs: RTree::get, RTree::insert_unique, RTree::remove, RTree::filter_iter"]}
{"id": "C58", "title": "node bounds are least boxes for floating-point coordinates", "statement": "With N64 or N32 coordinates, the bounds of every node are the least box around the entries below it, and the crate's own check of the bounds (_debug_assert_bvh) passes on every tree.", "quantifier": "every float format, dimension, configuration and history of calls", "why_tests_cant": "the empty bounds are (MAX, MIN) with finite MAX and MIN, so coordinates beyond them (infinities) behave differently; the statement is about all nodes of all trees", "anchors": ["src/bounds.rs: AABB::empty, AABB::union, AABB::union_all", "src/node.rs: NodeRef::_debug_assert_bvh"]}
{"id": "C59", "title": "nearest-neighbour search over floating-point coordinates is complete and ascending in the computed distance", "statement": "With N64 or N32 coordinates, finite keys (points, or boxes that contain a finite point) and a finite query point, computing a squared distance never produces NaN, iter_asc_by over EuclideanDistanceRanking yields every entry once, in ascending order of the computed distance, and min_by returns an entry at the least computed distance.", "quantifier": "every float format, dimension, configuration, volume function, history of calls, heap and query point, including distances that overflow to infinity", "why_tests_cant": "pruning is right only because rounding is monotone in every operation for all magnitudes, and NaN could arise from infinities in the middle of the computation", "anchors": ["src/ranking.rs: PointDistance, EuclideanDistanceRanking", "src/vector.rs: SVec::sq_mag", "src/iter.rs: SortedIter::next", "src/lib.rs: RTree::iter_asc_by, RTree::min_by"]}
{"id": "C60", "title": "nearest-neighbour search over floating-point coordinates is ascending in the true distance", "statement": "With N64 or N32 coordinates, finite keys and a finite query point, iter_asc_by over EuclideanDistanceRanking yields the entries in ascending order of their true distance, and min_by returns a nearest entry.", "quantifier": "every float format, dimension, configuration, history of calls, heap and query point", "why_tests_cant": "the rounding errors that invert the order are of relative size 2^-53 and do not show in ordinary data", "anchors": ["src/ranking.rs: PointDistance, EuclideanDistanceRanking", "src/vector.rs: SVec::sq_mag", "src/lib.rs: RTree::iter_asc_by, RTree::min_by"]}
{"id": "C61", "title": "queries through a filter adaptor yield exactly the entries that meet the space", "statement": "For any space type, filter_iter with IntersectsFilter or ContainsFilter yields exactly the entries whose key the space intersects (contains), in the order of iter, provided the space intersects all bounds that include such a key; with BoundedIntersectsFilter or BoundedContainsFilter it does so provided the bounds of the space intersect the bounds of such keys. How the bounds are tested is not observable.", "quantifier": "every bounds, key and space type with the stated laws, configuration and history of calls", "why_tests_cant": "the adaptors are generic over user-defined spaces", "anchors": ["src/filter.rs: IntersectsFilter, BoundedIntersectsFilter, ContainsFilter, BoundedContainsFilter", "src/lib.rs: RTree::filter_iter"]}
{"id": "C62", "title": "a query asks about each node and entry at most once, in order, and never below a rejected one", "statement": "For filter_iter, filter_iter_mut and join with any callbacks - keeping state, answering inconsistently, panicking - and a program that does anything between calls of next and catches panics: next never has undefined behaviour and never panics of its own accord; it unwinds exactly when a callback panics; the sequence of questions asked of the filter is that of a depth-first walk that asks about each node (pair) and entry (pair) at most once and goes below one only if it was accepted; the entries (pairs) yielded are exactly the accepted ones, in that order; and once next returned None it always does.", "quantifier": "every callback behaviour, program between calls, number of calls, bounds and key type, configuration and history", "why_tests_cant": "callbacks are arbitrary user code", "anchors": ["src/iter.rs: FilterIter::new, FilterIter::next, FilterIterMut::next, Iter::next", "src/join.rs: JoinIter::new, JoinIter::next, ProductIter::next", "src/filter.rs: SpatialFilter, JoinFilter"]}
{"id": "C63", "title": "a caught panic in a filter costs only what that question was about", "statement": "If a lawful filter (join filter) panics on some calls and the program catches it and goes on calling next until None, then every matching entry (pair) is yielded exactly once, except those at or below the nodes (pairs) and entries whose tests panicked; with no panics the result is exact.", "quantifier": "every lawful filter, every pattern of panics, program between calls, bounds and key type, configuration and history", "why_tests_cant": "a panic may strike at any call of the callback", "anchors": ["src/iter.rs: FilterIter::next", "src/join.rs: JoinIter::next"]}
{"id": "C64", "title": "ordered iteration is a lazy best-first search", "statement": "iter_asc_by, filter_iter_asc_by, their mut variants and min_by search in order of increasing lower bound: next always takes a waiting node or entry of least rank (entries before nodes of equal rank), yields it if it is an entry and otherwise ranks its children, in order. So each node and entry is ranked at most once, and with a lawful ranking, before an entry is yielded only children of nodes whose lower bound is at most its rank have been ranked. This holds for any ranking (stateful, inconsistent, panicking) as far as it does not depend on lawfulness, with no undefined behaviour.", "quantifier": "every ranking behaviour, program between calls, number of calls, priority queue meeting BinaryHeap's contract, bounds, key and metric type, configuration and history", "why_tests_cant": "rankings are arbitrary user code; the promise is about every tree and every ranking", "anchors": ["src/iter.rs: SortedIter, SortedIterMut, FilterSortedIter, FilterSortedIterMut", "src/ranking.rs: Ranking", "src/lib.rs: RTree::iter_asc_by, RTree::min_by"]}
{"id": "C65", "title": "a caught panic in a ranking costs only what that question was about", "statement": "If a lawful ranking panics on some calls and the program catches it and goes on calling next until None, the entries yielded still ascend in rank, and every ranked entry is yielded exactly once except those at or below the nodes and entries whose ranking panicked.", "quantifier": "every lawful ranking, every pattern of panics, program between calls, bounds, key and metric type, configuration and history", "why_tests_cant": "a panic may strike at any call of the callback", "anchors": ["src/iter.rs: SortedIter::next, FilterSortedIter::next"]}
{"id": "C66", "title": "a left join with stateful or panicking callbacks visits every left entry once, in order", "statement": "Whatever the join filter, its clone, the keys' borrow and bounds do (keep state, answer inconsistently, panic and be caught), left_join never misbehaves: the calls of next go through the left tree's entries in iteration order, each call yields the next entry or unwinds with the panic; a panicking test of bounds loses only the left entries below the left node it was made for, a panic of borrow, clone or bounds only that one entry; after None always None. The iterator that comes with a left entry lacks, of the right tree's entries, only those below nodes that the filter rejected together with a node above that left entry, and goes through the others as any filtered iterator does.", "quantifier": "every behaviour of the callbacks, program between calls, number of calls, pair of bounds and key types, configurations and histories", "why_tests_cant": "callbacks are arbitrary user code and may unwind at any call", "anchors": ["src/iter/left_join.rs: LeftJoinIter::next", "src/filter.rs: JoinFilter, JoiningFilter", "src/lib.rs: RTree::left_join"]}
{"id": "C67", "title": "after a caught panic a left join still pairs entries with exactly their matches", "statement": "If a lawful join filter panics on some calls and the program catches it and goes on, every left entry that left_join still yields comes with an iterator over exactly the right entries that match it, in iteration order (the right iterator in turn loses only what lies at or below its own panicking questions).", "quantifier": "every lawful join filter, every pattern of panics of filter, clone, borrow and bounds, program between calls, bounds and key types, configurations and histories", "why_tests_cant": "a panic may strike at any call of a callback, in the middle of the traversal of two trees", "anchors": ["src/iter/left_join.rs: LeftJoinIter::next, RewindableIter", "src/filter.rs: JoiningFilter"]}
{"id": "C68", "title": "the number of nodes is proportional to the number of entries", "statement": "At every point of every history the memory a tree occupies is proportional to what it stores: it has at most 2*len/min_children nodes (one if all entries fit a single node), each with one vector of max_children slots; removals give the memory of emptied nodes back.", "quantifier": "every history, every configuration, every data type", "why_tests_cant": "a bound over all histories; leaks of nodes show only after particular sequences of insertions and removals", "anchors": ["src/node.rs: NodeRefMut::insert, NodeRefMut::remove, NodeContainer::remove, NodeContainer::try_unbranch", "src/lib.rs: RTreeConfig"]}
{"id": "C69", "title": "unsigned coordinates: overflow checks change nothing", "statement": "A tree with u8, u16 or u32 coordinates (points, or boxes with min <= max), in a build with overflow checks and debug assertions, does exactly what the release build does, for every history: no union, volume or volume comparison ever panics, although subtraction of unsigned numbers panics below zero. (Up to 1023 bits of coordinates in a box corner; min_children at least 1, or no removals.)", "quantifier": "every history, every configuration, every dimension, the whole range of each type", "why_tests_cant": "the extents computed depend on which boxes are compared during splits and choices of a child; an underflow shows only in particular histories", "anchors": ["src/bounds.rs: SAABB::volume", "src/split.rs: quadratic", "src/select.rs: minimal_volume_increase"]}
{"id": "C70", "title": "distances, spheres and segments with unsigned coordinates", "statement": "With u8, u16 or u32 coordinates, distance ranked searches, sphere queries, box distances and segment tests give the same results as for signed coordinates, and do not panic in builds with overflow checks.", "quantifier": "every tree, every query, every pair of geometries within range", "why_tests_cant": "ranges over all query positions relative to the stored keys; the subtractions are fine for queries below the keys and wrap or panic otherwise", "anchors": ["src/ranking.rs: EuclideanDistanceRanking, PointDistance", "src/geom/sphere.rs: Sphere", "src/vector.rs: SVec as Intersects<Sphere>", "src/bounds.rs: SAABB::sq_dist_to", "src/intersects.rs: line_bounds_intersect"]}
{"id": "C71", "title": "debug printing shows the tree", "statement": "Formatting a tree with {:?} or {:#?} never fails by itself and shows the bounds of every node and every entry exactly once, in iteration order, nested like the nodes; if the Debug of a bound, key or value returns an error, the output stops there and the error is returned. The text of {:?} determines the tree (levels, node bounds, nesting, entries) when the texts of bounds, keys and values do, as they do for the crate's points and boxes of i32.", "quantifier": "every tree reachable by any history, every Debug implementation of bounds, keys and values, both forms", "why_tests_cant": "ranges over all trees and all user Debug implementations, also failing ones", "anchors": ["src/lib.rs: RTree (derive Debug)", "src/node.rs: Debug for NodeContainer, NodeRef, InnerNodeChildrenRef, NodeChildrenRef", "src/bounds.rs: AABB (derive Debug)", "src/vector.rs: Debug for SVec"]}
{"id": "C72", "title": "dropping a tree with panicking destructors is memory safe", "statement": "A program that makes, calls, clones and drops trees and catches every panic has no undefined behaviour even if, besides other user code, destructors of keys, values or bounds panic while a tree is dropped. Nothing is destroyed twice; the tree is destroyed in a fixed order (leaves first to last, entries of a leaf last to first); after the first panicking destructor only the value beside a panicking key and the bounds of the root are still destroyed; a second panic there aborts; at most one panic never aborts.", "quantifier": "every program, number of trees, configuration, every subset of user-code and destructor calls that panics, bounds with and without destructors", "why_tests_cant": "which destructor panics in which position of which tree is unbounded, and double destruction is silent", "anchors": ["src/node.rs: NodeRefMut::drop, InnerNodeChildrenRefMut::drop, Drop for NodeContainer", "src/fc_vec.rs: FCVecRefMut::drop"]}
{"id": "C73", "title": "a panicking destructor leaks nothing else", "statement": "If one destructor panics while a tree is dropped, everything else the tree owns is destroyed all the same.", "quantifier": "every reachable tree, every panicking destructor", "why_tests_cant": "leaks are silent", "anchors": ["src/node.rs: InnerNodeChildrenRefMut::drop", "src/fc_vec.rs: FCVecRefMut::drop"]}
{"id": "C74", "title": "sphere queries with float coordinates", "statement": "In a tree of points with N32 or N64 coordinates a query with BoundedIntersectsFilter::new_bounded(sphere) yields exactly the entries at distance at most the radius from the center.", "quantifier": "every reachable tree of finite points, every dimension, every finite center and finite radius that is not negative, both float formats", "why_tests_cant": "rounding, overflow and underflow happen only for particular operands among 2^64, and whether a wrongly pruned entry is noticed depends on the shape of the tree", "anchors": ["src/geom/sphere.rs: Sphere::bounds, Sphere::intersects", "src/filter.rs: BoundedIntersectsFilter", "src/vector.rs: sq_mag", "src/lib.rs: cosmic test"]}
{"id": "C75", "title": "segment queries with float coordinates", "statement": "In a tree of boxes with N32 or N64 coordinates a query with IntersectsFilter::new(line) or BoundedIntersectsFilter::new_bounded(line) yields exactly the entries whose box shares a point with the segment.", "quantifier": "every reachable tree of boxes, every dimension, every segment with finite ends, both float formats, both filters", "why_tests_cant": "rounding, overflow and underflow happen only for particular operands among 2^64, and whether a wrongly pruned entry is noticed depends on the shape of the tree", "anchors": ["src/geom/line.rs: Line::intersects, Line::bounds, Line::delta", "src/intersects.rs: line_bounds_intersect", "src/filter.rs: IntersectsFilter, BoundedIntersectsFilter"]}
{"id": "C76", "title": "ray queries with float coordinates", "statement": "In a tree of boxes with N32 or N64 coordinates a query with IntersectsFilter::new(ray) yields exactly the entries whose box shares a point with the ray.", "quantifier": "every reachable tree of boxes, every dimension of at least one, every ray with finite origin and direction, both float formats", "why_tests_cant": "rounding, overflow and underflow happen only for particular operands among 2^64, and whether a wrongly pruned entry is noticed depends on the shape of the tree", "anchors": ["src/geom/ray.rs: Ray::intersects", "src/intersects.rs: ray_bounds_intersect", "src/filter.rs: IntersectsFilter"]}
{"id": "C77", "title": "length of a segment", "statement": "Line::len returns the Euclidean length of the segment and Line::sq_len its square, up to rounding; the length is 0 only if the ends are equal, it is never NaN and infinite only if the length is out of range of f64.", "quantifier": "every dimension of at least one, every segment with i32 coordinates or finite N32 or N64 coordinates", "why_tests_cant": "wrap-around, rounding, underflow and overflow of intermediate results happen only for particular operands, and the error grows with the dimension", "anchors": ["src/geom/line.rs: Line::sq_len, Line::len, Line::delta", "src/vector.rs: SVec::sq_mag"]}
{"id": "C78", "title": "user code that answers as it likes", "statement": "Whatever the user's implementations of Bounds, Bounded, Volume, Contains, Intersects, Eq, Borrow and Clone answer, even if they contradict themselves from one call to the next, and whichever of their calls panic (every panic being caught): no call has undefined behaviour, and every key, value, vector and stored bounds is destroyed, given back, kept in a tree or (only by a call that panicked) leaked, exactly once (max_children = 1 excluded if the bounds have a destructor, see C48). A call that returns adds, replaces, removes or clones exactly what it says, taking two keys to be equal if user code said so during the call; a call that unwinds touches no other tree and leaves no entries that were not there or handed over. len, iteration and destruction see exactly the stored entries, and filter and join on such trees yield exactly what the query accepts on the way down. If user code never panics, and min_children is 0 or between 2 and max_children - 2, no call panics and all nodes keep their guaranteed fill.", "quantifier": "all user code, also code that is stateful, inconsistent or panics anywhere, all programs on any number of trees, all configurations as stated", "why_tests_cant": "a test runs one implementation of the traits; memory safety must not depend on laws the traits cannot enforce, for any sequence of answers", "anchors": ["src/node.rs: NodeRefMut::insert, insert_unique, remove, get_mut, NodeContainer::branch, try_unbranch, remove, insert_entry, clone", "src/split.rs: QuadraticSplitter::split", "src/select.rs: MinimalVolumeIncreaseSelector::select", "src/bounds.rs: Bounds, Bounded, Volume", "src/lib.rs: RTree::insert, insert_unique, remove, get_mut"]}
{"id": "C79", "title": "ordered iteration is safe whatever the metric's Ord does", "statement": "An ordered iterator (iter_asc_by, filter_iter_asc_by, their mut variants, min_by ...) whose ranking and whose metric's Ord are stateful, contradict themselves or panic (every panic being caught) has no undefined behaviour: a node is never read as an entry or the other way round. No entry is yielded twice and nothing is ranked twice. If no call unwinds, the iterator is exhausted and the ranking gave everything a rank, every entry is yielded exactly once, in some order.", "quantifier": "all trees built through the API, all rankings, all orders, all programs that call next any number of times", "why_tests_cant": "the type tag of the items in the heap is an integer compared by user code; a test runs a few orders, the claim is for any sequence of comparison results and panics", "anchors": ["src/iter.rs: SortedIter, SortedIterMut, FilterSortedIter, FilterSortedIterMut, Ranked, SortedIterItem", "src/ranking.rs: Ranking"]}
{"id": "C80", "title": "the volume of a box", "statement": "The volume of a box with min <= max is the product of its side lengths up to rounding (exact if that product is an integer of at most 53 bits); it is never negative or NaN and, for integer coordinates, zero exactly for a flat box. A box that contains another has at least its volume, so joining boxes never loses volume, and the volume increase that insertion and splitting compare is never negative.", "quantifier": "all boxes, all numbers of dimensions, all coordinates of i32, u8, u16, u32, N32, N64", "why_tests_cant": "the worst cases are the boxes whose side length or product overflows, wraps or rounds; the claim is about all pairs of nested boxes", "anchors": ["src/bounds.rs: Volume for SAABB, Bounds for AABB (union)", "src/select.rs: volume_increase_of_min_bounds", "src/split.rs: QuadraticSplitter::split"]}
{"id": "C81", "title": "a split sends each element to the group it enlarges less", "statement": "When a node overflows, its elements and the new one are distributed from the two seeds: in each round, of the element that would enlarge the first group least and the one that would enlarge the second group least, the one with the smaller enlargement joins its group (the second in case of a tie), unless the other group needs all the elements that remain to reach the minimum number of children; nothing else decides which group an element joins.", "quantifier": "all element lists, all minima and maxima, all totally ordered volumes; all boxes of i32, u8, u16, u32", "why_tests_cant": "the rule must hold in every round for every distribution of the elements; an element misplaced by an off-by-one leaves a tree that still answers every query", "anchors": ["src/split.rs: QuadraticSplitter::split, best_candidate_for_group", "src/node.rs: NodeRefMut::self_insert"]}
{"id": "C82", "title": "debug and release builds agree for floating-point coordinates", "statement": "With N32 or N64 coordinates a debug build, in which every arithmetic result of the float type and every volume is asserted not to be NaN, returns the same results as a release build for every history of operations; in particular it does not panic.", "quantifier": "all histories of operations on trees of float points or boxes, all formats, dimensions and supported configurations", "why_tests_cant": "whether an intermediate volume is NaN depends on overflow of unions of boxes that only particular histories form", "anchors": ["src/bounds.rs: impl Volume for SAABB", "src/select.rs: MinimumVolumeIncrease", "src/split.rs: QuadraticSplitter", "src/lib.rs: SVec<N32, 3>, SVec<N64, 2>"]}
{"id": "C83", "title": "vector operators act on each coordinate by itself", "statement": "v[i] is coordinate i and panics exactly when there is none; v[i] = x changes that coordinate only; a + b and a - b hold the sums and differences of the coordinates and panic only if one of those panics; a += b gives a + b when it returns, and when it panics the coordinates before the one whose sum panics hold their sums and the others are unchanged; into_map calls its closure once per coordinate, in order, until it panics; vectors compare lexicographically.", "quantifier": "all dimensions, all scalar types and operators (panicking ones included), all closures with state, all vectors", "why_tests_cant": "the operators are generic in dimension and scalar type", "anchors": ["src/vector.rs: Index, IndexMut, Add, AddAssign, Sub for SVec, SVec::into_map, derive(PartialOrd)"]}
{"id": "C84", "title": "what a tree answers does not depend on its configuration", "statement": "Two trees with the same keys but perhaps different max_children, min_children, bounds type and volumes, driven by the same insert_unique, remove, get, get_mut, len, is_empty and clone calls, give the same answers, end with the same entries, and answer every query with the same entries in some order. With insert as well, which may store equal keys several times, remove and get find an entry in both trees or in neither, counts agree, and both trees hold every key equally often.", "quantifier": "all key and value types, all pairs of bounds types and volumes, all pairs of supported configurations, all histories of calls, all filters", "why_tests_cant": "a test compares finitely many configurations on finitely many histories", "anchors": ["src/lib.rs: RTreeConfig, RTree::insert, insert_unique, remove, get, get_mut, len, is_empty, clone, filter_iter"]}
{"id": "C85", "title": "signed coordinates of any width", "statement": "Trees with i8, i16 or i32 coordinates that are less than half the range of the type apart behave in a build with overflow checks exactly as in one without, and do not panic; the volume of a valid box with sides below half the range is the rounded product of its sides, exact up to 2^53, and does not shrink when the box grows; child choice, seeds and distribution follow the rules of C42, C44, C81 for every box; box queries are exact; nearest-neighbour searches are exact, with and without overflow checks, while squared distances fit the type. Neither condition can be dropped.", "quantifier": "all signed integer widths up to 32 bits, all dimensions up to 31, all histories of calls, all boxes, points and query points", "why_tests_cant": "the boundary of safe coordinates depends on type, dimension and the bounds a whole history of calls produces", "anchors": ["src/bounds.rs: SAABB, Volume for SAABB", "src/ranking.rs: EuclideanDistanceRanking, PointDistance", "src/lib.rs: RTree::insert, remove, iter_asc", "src/select.rs", "src/split.rs"]}
{"id": "C86", "title": "a right-hand iterator is complete when it is handed out", "statement": "When a left join hands out a right-hand iterator, every slot of the block of memory the iterator is built in has been written, with content of the right kind, before anything reads it, and building it never stops halfway; dropping the iterator drops each slot exactly once. Whatever is in the block before, and were a callback to panic halfway, a slot that was not written is never read or dropped, and nothing is dropped twice (what had been written is then forgotten, not dropped).", "quantifier": "every pair of trees and every filter, every number of calls of the join; every block, every pair of callbacks that answer or panic", "why_tests_cant": "reading a slot that was not written is undefined behaviour and may look right; depends on the heights and on the state of the join", "anchors": ["src/iter_stack.rs: IterStack::init_into, IterStack::map_into, Drop for IterStack", "src/left_join.rs: LeftJoinIter::next, RewindableIter::remainder_iter"]}
