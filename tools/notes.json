{
 "C04": "REFUTED by the code: the _refuted theorem proves the negation on a concrete reachable history; the _partial theorems prove what does hold. remove scans the children of a node from the last to the first while get scans them from the first, so among equal keys remove can take a later duplicate than the one get returned. C04_remove_order_partial settles which one is taken: leaves from last to first, each from its first entry; the first match in that order goes and nothing else.",
 "C08": "REFUTED by the code as documented: the _refuted theorem proves the negation on a concrete reachable history; the _partial theorem proves what does hold. With min_children = 0 the root can become an inner node whose leaves are empty.",
 "C15": "REFUTED by the code as documented: the _refuted theorem proves the negation on a concrete reachable history; the _partial theorem proves what does hold. The heap breaks ties arbitrarily.",
 "C21": "REFUTED by the code as documented: the _refuted theorem proves the negation on a concrete reachable history; C21_min_fill_partial proves min_children - 1 and C21_guaranteed_fill the fill guaranteed in every configuration, min(min_children, max_children - min_children).",
 "C24": "REFUTED by the code: the _refuted theorem proves the negation on a concrete history, _refuted_everywhere shows that every tree type with enough distinct keys has such a history; the _partial theorem proves what does hold. With min_children = 1 removing everything leaves a root that is an inner node without children; the next insert panics.",
 "C32": "REFUTED by the code as documented: the _refuted theorem proves the negation on a concrete reachable history; the _partial theorem proves what does hold.",
 "C34": "REFUTED by the code as documented: the _refuted theorem proves the negation on a concrete reachable history; the _partial theorem proves what does hold.",
 "C43": "REFUTED by the code as documented: the _refuted theorem proves the negation on a concrete reachable history; the _partial theorem proves what does hold. IntoIter's end pointer equals its start pointer when size_of::<T>() is 0.",
 "C46": "REFUTED by the code as documented: the _refuted theorem proves the negation on a concrete reachable history; the _partial theorem proves what does hold. Layout::array of zero bytes is passed to alloc::alloc.",
 "C27": "MemModel.v models every vector buffer and every destructor call for programs in which nothing panics; CrashModel.v (C48-C53) adds panics, unwinding and destructors of stored bounds. The byte layout of buffers is C28, C46.",
 "C45": "REFUTED for the empty tree: its root bounds are the inverted extreme box and the distance to them overflows i32 (panic in builds with overflow checks, C45_empty_tree_refuted). The _partial theorem proves the rest: every non-empty reachable tree with min_children >= 1. C45_search_points_partial and C45_search_boxes_partial run whole searches (the heap of the iterator included) in the checked build: no call of next panics and the entries come in order of distance.",
 "C40": "See the theorem comments: the _refuted theorem proves the negation of the documented claim on a concrete reachable case and the other theorems prove what does hold.",
 "C44": "REFUTED by the code: worst_combination does not return the pair of greatest joint volume on a concrete list of boxes; the other theorem(s) prove what does hold. C44_groups_partial: the two groups returned by a split start with that pair; C44_i32_partial, C44_unsigned_partial: the same for boxes of integers (up to 33 or 31 dimensions), with no hypothesis on volumes. C44_floats_partial: the same for boxes of N32 or N64 in the window of C82.",
 "C47": "REFUTED for boxes whose facing sides differ by 2^31 or more: the subtraction is done in i32 and wraps (panics in checked builds), so a wide box is at a positive distance from itself. The _partial theorems prove the property whenever no coordinate difference overflows (any window narrower than 2^31).",
 "C39": "REFUTED as stated: (1) when center +- radius overflows the coordinate type the bounding box wraps and a query misses the sphere's own center; (2) a sphere of negative radius matches points but has an inverted bounding box; (3) for radii above 94906265 the f64 rounding accepts points outside. The _partial theorems prove the property in exact arithmetic, and for i32 whenever radius >= 0 and the sphere lies in the coordinate range (exact distance up to radius 94906265).",
 "C37": "Exact in exact arithmetic (C37_exact_arithmetic_partial; IEEE infinities/NaN kept, no rounding); bounds theorem for every scalar. With i32 coordinates and f64 parameters the property is false: rounding can lose a touching point (49*(1/49)<1) and a delta can overflow (_refuted). Proved instead: soundness, and completeness for segments sharing more than one point with the box, for segments spanning at most 2^25 per dimension; and line queries return exactly the boxes that pass the test.",
 "C38": "False as stated: boxes behind the origin are accepted, rays along a face orthogonal to axis 0 and flat boxes are rejected (_refuted). Proved instead: the exact characterisation of what the test decides in exact arithmetic, its f64/i32 version up to rounding in a single point, and exactness of ray queries relative to the test.",
 "C23": "C23_supported_exact: for one-dimensional i32 points the panic-free configurations are exactly max_children >= 2 and min_children <> 1.",
 "C48": "REFUTED for max_children = 1 with a bounds type that has a destructor: NodeContainer::branch panics while it holds a ptr::read copy of the root, whose bounds are then destroyed twice. The _partial theorems prove the property for all other trees. Modelled: every call of user code may panic (crash), the library's own panics, destructors of locals; not modelled: destructors that panic, order of destruction of locals.",
 "C49": "For trees with max_children <> 1 or bounds without destructor (else C48 is refuted).",
 "C50": "REFUTED: an insert that panics while splitting destroys the entries already moved to the second group (or the whole new sibling). The _partial theorem: calls other than insert, insert_unique and remove change nothing when they panic, and no call touches another tree; C49_every_call bounds what insert and remove leave. C50_calm_partial: an insertion into a tree none of whose nodes is full loses nothing when it panics, and a removal from a tree whose nodes are above their minimum loses at most one entry, a match.",
 "C51": "REFUTED: an insert that panics on the way up leaves parents whose bounds do not cover the new entry. The _partial theorems: whatever get finds is stored under a matching key; and if every call that panicked was calm (inserted into a tree without full nodes, removed from a tree whose nodes but the root are above their minimum, or was another kind of call) and did not insert a key matching the query, then get and filtered iteration see exactly what is stored and remove takes a matching stored entry out whenever there is one. Missing: lookups after panics inside splits and merges, and of the key whose insertion panicked.",
 "C52": "REFUTED: two panicking removals leave an inner root without children, on which insert panics by itself (unwrap in select). The _partial theorems: new, get_mut, clone and drop panic only if user code does, in any configuration; and in supported configurations, if all earlier panicking calls were calm, every call panics only if user code does. Missing: insertions and removals after panics inside splits and merges (refuted in general).",
 "C53": "REFUTED: a panicking clone leaks the vectors below the nodes already cloned (bare Node values do not destroy their children). The _partial theorem: if no call panicked nothing leaks. C53_leak_free_partial / C53_leak_free_program_partial: a panicking new, replace, lookup, clone of a height-0 tree, insertion into a tree without full inner nodes, or removal from a tree whose nodes are above their minimum leaks nothing.",
 "C54": "REFUTED for the contract of Vec::with_capacity (may reserve more than asked): the stack of an iterator is leaked from such a vector and given back as a box of its length. The _partial theorem: if with_capacity reserves exactly what was asked, no return is undefined, in any order, and nothing is left over; box_layout is what the compiler computes for the box.",
 "C55": "REFUTED: keys whose coordinates are 2^31 or more apart overflow in Volume::volume; with min_children = 0 an emptied leaf has the bounds (MAX, MIN), whose extent overflows whatever the keys; D = 0 panics at the first split. The _partial theorems: any checked build gives the same outcome or panics; with all keys in a window of less than 2^31 (and 2^(k D) within f64), and min_children >= 1 or no removals, the outcome is the same for every history, so no panic in supported configurations.",
 "C56": "Counts calls of Bounds::union, Volume::volume and N64::sub, not comparisons, allocations or moves.",
 "C57": "Floats are Coq's SpecFloat with the validity of the format; NaN is excluded as noisy_float does. Release build (C55 is about checks).",
 "C58": "REFUTED with infinite coordinates: the empty bounds (MAX, MIN) are finite, so a leaf with one point at +inf has bounds [MAX, inf], and after a split _debug_assert_bvh panics (cover, hence every lookup and query, is unaffected: C57). The _partial theorems prove both claims for finite coordinates, up to the sign of zero.",
 "C59": "The operators of NoisyFloat are modelled as those of the float; C59_no_nan_* show that no NaN reaches them, so debug and release builds agree. Keys or query points with infinite coordinates (inf - inf) are excluded.",
 "C60": "REFUTED: rounding can invert the order (two doubles in 3-D, relative difference about 2^-53). The _partial theorems bound the inversion: an entry yielded earlier is at most a factor ((1+u)/(1-u))^(D+2), u = 2^-p, and the underflow of D squares farther away, for D dimensions.",
 "C61": "Added after mutant S58 (BoundedContainsFilter testing bounds with contains) survived: for boxes the crate's contains is its intersects (C32), so only a theorem about any bounds type can tell.",
 "C62": "C62_asked_once spells out what explore implies: order, no duplicates, number of questions at most nodes plus entries.",
 "C63": "The entries missed are named by explore (FxSpec.v): those at or below a question answered by a panic.",
 "C64": "best_first (FxSortedSpec.v) is the specification of the search; C64_each_once and C64_lazy are what it implies. Assumed: Ord::cmp of the metric is a function that does not panic.",
 "C65": "REFUTED: the node was already popped when the ranking of one of its children panics, so this child's later siblings are lost too. The _partial theorem: the yielded entries ascend, none is yielded twice, and what is lost is exactly what lies at or below the panicking child and its later siblings (best_first); nothing without panics.",
 "C66": "left_walk and prune (FxLeftSpec.v) are the specification; the questions are those that llogged writes down.",
 "C67": "The outer iteration may have unwound any number of times before the entry came out. The borrowed form of a key is assumed to have the key's bounds.",
 "C68": "REFUTED for min_children = 0: emptied nodes stay, so trees without entries can have arbitrarily many nodes (for every max_children >= 2). _partial: the linear bound whenever guaranteed_fill >= 2 (in particular 2 <= min_children <= max_children - 2), fewer levels than entries and a quadratic bound for every other min_children >= 2, and the lower bound len <= max_children * nodes for every configuration.",
 "C69": "All histories of points and of valid boxes for every unsigned type up to 32 bits; C69_min0_needed shows why min_children >= 1 (or no removal) is part of the statement: an emptied node has the inverted extreme bounds, whose extent underflows.",
 "C70": "REFUTED: with overflow checks a nearest neighbour search panics unless the query point is at most the key in every coordinate (C70_search_refuted, C70_distance_checked: exact condition; C70_never_below_partial: no search ever yields another key); spheres miss the points below their center (C70_sphere_refuted); sq_dist_to is huge for overlapping boxes and panics for every pair of boxes but one equal point (C70_box_distance_refuted, C70_box_distance_checked_refuted); segments miss boxes they lie in (C70_line_refuted). _partial: release nearest neighbour search is exact (wrapping squares cancel); checked search from below; spheres restricted to the upper orthant; segments going up from below the box. Release build, sq_dist_to: only the distance of a point to itself is right (C70_box_distance_partial).",
 "C71": "The builders of core::fmt are modelled as documented (trusted). C71_debug_shows and C71_shown_entries hold for both forms; exact text and injectivity are stated for {:?}. The configuration is not part of the text.",
 "C26": "C26_debug_assert_eq, C26_debug_assert_eq_exact: the crate's own (test-only) equality check accepts a clone, and accepts exactly the trees with the same configuration, levels, nesting and entries; it does not look at node bounds.",
 "C72": "Destructors that panic are modelled where a tree is dropped; a key destructor that panics inside remove is the same as a panic of the bounds call after it (C48-C53). Other destructors that run inside calls (the key insert_unique discards, replaced bounds) are assumed not to panic. unwind_ok as in C48: bounds without destructors, or max_children not 1.",
 "C73": "REFUTED: the loops over children and elements are left at the panic, so all later entries, their vectors and bounds, and the vectors up to the root leak. C73_what_is_leaked_partial says exactly what is leaked. Missing: nothing; the property is false of the code.",
 "C74": "REFUTED: entries inside are missed (C74_missed_n64_refuted, C74_missed_n32_refuted), radii whose square overflows or underflows yield entries 2^100 radii away (C74_far_outside_refuted), and whether an accepted entry on the edge is found depends on the other entries (C74_depends_on_tree_refuted). What holds: the query is exact up to an explicit relative error of the squared distance (C74_query_partial), exact for integer coordinates in the range where squares are exact (C74_integers_partial), and no NaN arises (C74_no_nan_partial).",
 "C75": "REFUTED: a touching box is missed (C75_missed_refuted), a box just beyond the end is yielded (C75_false_positive_refuted) and with the bounded filter whether it is yielded depends on the other entries (C75_bounded_depends_on_tree_refuted); where a difference overflows or its inverse does the error is not small (C75_far_off_refuted, C75_missed_tiny_refuted). What holds: the plain query yields exactly the entries that pass the segment's own test, whatever the tree, even with infinite boxes (C75_query_partial); the test is exact up to moving each side by 3(2^-p + 2^-53) of its distance from the start (C75_accuracy_partial), and so are both queries (C75_near_query_partial), for N32 whenever no coordinate exceeds 2^126 (C75_n32_query_partial).",
 "C76": "REFUTED: boxes behind the origin are yielded (C76_behind_refuted); a ray along a face (C76_on_face_refuted) and a flat box (C76_flat_box_refuted) are missed. What holds: the query yields exactly the entries that pass the ray's own test, whatever the tree (C76_query_partial); the test decides, up to moving each side by 3(2^-p + 2^-53) of its distance from the origin, whether the whole line through the origin shares more than one point with the box (C76_accuracy_partial, C76_n32_query_partial).",
 "C77": "REFUTED: a difference of i32 coordinates that overflows wraps around (C77_i32_overflow_refuted); squaring underflows, so two different points have distance 0 (C77_underflow_refuted), and overflows, so the length 2^600 is returned as infinity (C77_overflow_refuted). What holds: for i32 coordinates without overflow of a difference both results have a relative error of about 2^-53 per operation (C77_i32_partial), are exact up to a squared length of 2^53 (C77_i32_exact_partial) and are 0 exactly if the ends are equal (C77_i32_zero_partial); for floats the same with an absolute error for underflow, and the length is infinite only from about 2^512 (2^128 for N32) (C77_floats_partial); integer coordinates are exact (C77_integers_partial).",
 "C78": "All calls of user code between two changes of the data structure form a numbered group, and an oracle gives every answer of every group, so nothing is assumed of the traits and a run covers code that decides as it goes. C78_no_ub and C78_owned_once: memory; C78_every_call: effect on the contents; C78_trees_sound: len, iteration and destruction; C78_queries and C78_joins: iterators of filter and join on such trees, with effectful queries, explore the tree as in C62; C78_left_joins, C78_ordered: left joins and ordered iterators on such trees (as in C66, C79); C78_no_panic: no panics and fill of the nodes. Not modelled: panics in destructors, the order in which locals are destroyed.",
 "C79": "C79_any_order: safety and the course of any search; C79_each_once: what that means for the entries; C79_complete: both for a ranking that ranks everything. The priority queue is abstract: encapsulated is what std documents for a senseless Ord (it hands out each pushed item at most once), lossless what its code does (it loses items only if a comparison panics). C79_example instantiates both.",
 "C80": "REFUTED for i32 boxes 2^31 or more wide (max - min wraps: negative volume, less than that of a box inside; C80_i32_refuted) and for floats (a width that overflows times 0 is NaN; a tiny box underflows to 0; C80_floats_refuted). Proved: i32 boxes narrower than 2^31 in up to 33 dimensions (C80_i32_partial, C80_i32_monotone_partial, C80_i32_union_partial), all u8/u16/u32 boxes in up to 31 dimensions (C80_unsigned, C80_unsigned_monotone), floats whenever the computed volume is finite (C80_floats_partial: the exact sequence of roundings; C80_floats_monotone_partial).",
 "C81": "REFUTED (C81_refuted: maximum 4, minimum 2, the points 0, 100, 99, 98, 97 on a line: the first group, seeded with 0, gets two of the points near 100 although it needs only one): the code lets the first group claim all that remain when with them it has min+1 elements. Proved: the rule with min+1 in place of min for the first group when 2*min <= max (C81_partial; C81_i32_partial and C81_unsigned_partial without hypotheses on volumes; C81_leaf_partial, C81_inner_partial: as the effect of an insertion on a full node), and the exact rule for every minimum (C81_rule_partial). C81_floats_partial: boxes of N32 or N64 in the window of C82, without hypotheses on volumes.",
 "C42": " The hypothesis is volume_laws (Spec.v): only the volumes of boxes and their differences are totally preordered. C42_i32, C42_unsigned: no hypothesis on volumes at all (wrapped volumes are still finite doubles). C42_floats: boxes of N32 or N64 in the window of C82.",
 "C82": "REFUTED for finite coordinates (C82_refuted: five insertions in the plane with two extreme abscissas: infinite times 0) and for infinite ones (C82_infinite_refuted: inf - inf). Proved: agreement when all coordinates are at most 2^k in absolute value, k+1 < e and (k+1)*D <= 1023, for points and boxes (C82_points_in_window_partial, C82_boxes_in_window_partial), hence no panic (C82_no_panic_in_window_partial); unconditionally: the debug build agrees or panics (C82_agrees_or_panics_partial).",
 "C83": "C83_not_atomic: in a debug build a += b that panics may have changed a.",
 "C84": "supported configurations (C23); is_empty is called only if min_children is not 0 (C08).",
 "C85": "coordinates in a window less than half the range wide (needed: C85_window_needed), squared distances that fit (needed: C85_fit_needed); at most 31 dimensions of 32 bits; min_children at least 1 or no removals, as in C69.",
 "C86": "the callbacks of init_into are functions without state of their own (those of the crate have none); IterStack::map, which nothing calls, is not modelled."
}