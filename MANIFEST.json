{
 "claims": [
  {
   "property": "C01",
   "status": "proved",
   "theorems": [
    "C01_insert_adds_one",
    "C01_insert_returns"
   ],
   "note": ""
  },
  {
   "property": "C02",
   "status": "proved",
   "theorems": [
    "C02_get_finds_first",
    "C02_get_none_iff"
   ],
   "note": ""
  },
  {
   "property": "C03",
   "status": "proved",
   "theorems": [
    "C03_remove_one",
    "C03_remove_returns"
   ],
   "note": ""
  },
  {
   "property": "C04",
   "status": "partial",
   "theorems": [
    "C04_remove_first_refuted",
    "C04_remove_first_partial",
    "C04_remove_order_partial",
    "C04_leaves_partial"
   ],
   "note": "REFUTED by the code: the _refuted theorem proves the negation on a concrete reachable history; the _partial theorems prove what does hold. remove scans the children of a node from the last to the first while get scans them from the first, so among equal keys remove can take a later duplicate than the one get returned. C04_remove_order_partial settles which one is taken: leaves from last to first, each from its first entry; the first match in that order goes and nothing else."
  },
  {
   "property": "C05",
   "status": "proved",
   "theorems": [
    "C05_insert_unique",
    "C05_insert_unique_returns"
   ],
   "note": ""
  },
  {
   "property": "C06",
   "status": "proved",
   "theorems": [
    "C06_map"
   ],
   "note": ""
  },
  {
   "property": "C07",
   "status": "proved",
   "theorems": [
    "C07_len",
    "C07_is_empty"
   ],
   "note": ""
  },
  {
   "property": "C08",
   "status": "partial",
   "theorems": [
    "C08_is_empty_min0_refuted",
    "C08_is_empty_sound_partial"
   ],
   "note": "REFUTED by the code as documented: the _refuted theorem proves the negation on a concrete reachable history; the _partial theorem proves what does hold. With min_children = 0 the root can become an inner node whose leaves are empty."
  },
  {
   "property": "C09",
   "status": "proved",
   "theorems": [
    "C09_iter_yields_all"
   ],
   "note": ""
  },
  {
   "property": "C10",
   "status": "proved",
   "theorems": [
    "C10_filter_iter_exact",
    "C10_filter_iter_any_filter"
   ],
   "note": ""
  },
  {
   "property": "C11",
   "status": "proved",
   "theorems": [
    "C11_layout_exists",
    "C11_iter_mut",
    "C11_filter_iter_mut"
   ],
   "note": ""
  },
  {
   "property": "C12",
   "status": "proved",
   "theorems": [
    "C12_get_mut"
   ],
   "note": ""
  },
  {
   "property": "C13",
   "status": "proved",
   "theorems": [
    "C13_iter_asc_by",
    "C13_iter_asc_by_mut"
   ],
   "note": ""
  },
  {
   "property": "C14",
   "status": "proved",
   "theorems": [
    "C14_min_by",
    "C14_filter_min_by"
   ],
   "note": ""
  },
  {
   "property": "C15",
   "status": "partial",
   "theorems": [
    "C15_first_minimal_refuted",
    "C15_unique_minimal_partial"
   ],
   "note": "REFUTED by the code as documented: the _refuted theorem proves the negation on a concrete reachable history; the _partial theorem proves what does hold. The heap breaks ties arbitrarily."
  },
  {
   "property": "C16",
   "status": "proved",
   "theorems": [
    "C16_filter_iter_asc_by",
    "C16_filter_iter_asc_by_mut"
   ],
   "note": ""
  },
  {
   "property": "C17",
   "status": "proved",
   "theorems": [
    "C17_join_exact",
    "C17_join_any_filter"
   ],
   "note": ""
  },
  {
   "property": "C18",
   "status": "proved",
   "theorems": [
    "C18_left_join_exact",
    "C18_left_join_any_filter"
   ],
   "note": ""
  },
  {
   "property": "C19",
   "status": "proved",
   "theorems": [
    "C19_check_exact",
    "C19_bounds_cover",
    "C19_bounds_exact",
    "C19_debug_assert_bvh"
   ],
   "note": ""
  },
  {
   "property": "C20",
   "status": "proved",
   "theorems": [
    "C20_check_exact",
    "C20_max_children",
    "C20_min_children",
    "C20_root_children",
    "C20_debug_assert_min_children"
   ],
   "note": ""
  },
  {
   "property": "C21",
   "status": "partial",
   "theorems": [
    "C21_min_fill_refuted",
    "C21_min_fill_partial",
    "C21_guaranteed_fill"
   ],
   "note": "REFUTED by the code as documented: the _refuted theorem proves the negation on a concrete reachable history; C21_min_fill_partial proves min_children - 1 and C21_guaranteed_fill the fill guaranteed in every configuration, min(min_children, max_children - min_children)."
  },
  {
   "property": "C22",
   "status": "proved",
   "theorems": [
    "C22_uniform_depth",
    "C22_height",
    "C22_height_min",
    "C22_height_log2"
   ],
   "note": ""
  },
  {
   "property": "C23",
   "status": "proved",
   "theorems": [
    "C23_no_panic",
    "C23_no_panic_without_remove",
    "C23_no_panic_borrowed",
    "C23_supported_exact"
   ],
   "note": "C23_supported_exact: for one-dimensional i32 points the panic-free configurations are exactly max_children >= 2 and min_children <> 1."
  },
  {
   "property": "C24",
   "status": "partial",
   "theorems": [
    "C24_min1_refuted",
    "C24_min1_refuted_everywhere",
    "C24_min1_grow_partial"
   ],
   "note": "REFUTED by the code: the _refuted theorem proves the negation on a concrete history, _refuted_everywhere shows that every tree type with enough distinct keys has such a history; the _partial theorem proves what does hold. With min_children = 1 removing everything leaves a root that is an inner node without children; the next insert panics."
  },
  {
   "property": "C25",
   "status": "proved",
   "theorems": [
    "C25_no_ub_history",
    "C25_no_ub_calls"
   ],
   "note": ""
  },
  {
   "property": "C26",
   "status": "proved",
   "theorems": [
    "C26_clone",
    "C26_debug_assert_eq",
    "C26_debug_assert_eq_exact"
   ],
   "note": "C26_debug_assert_eq, C26_debug_assert_eq_exact: the crate's own (test-only) equality check accepts a clone, and accepts exactly the trees with the same configuration, levels, nesting and entries; it does not look at node bounds."
  },
  {
   "property": "C27",
   "status": "proved",
   "theorems": [
    "C27_everything_accounted_for",
    "C27_all_dropped_exactly_once",
    "C27_buffers_live_and_not_shared",
    "C27_supported_programs_run",
    "C27_agrees_with_plain_model"
   ],
   "note": "MemModel.v models every vector buffer and every destructor call for programs in which nothing panics; CrashModel.v (C48-C53) adds panics, unwinding and destructors of stored bounds. The byte layout of buffers is C28, C46."
  },
  {
   "property": "C28",
   "status": "proved",
   "theorems": [
    "C28_vector_is_list",
    "C28_nothing_lost",
    "C28_tree_model_uses_this_list"
   ],
   "note": ""
  },
  {
   "property": "C29",
   "status": "proved",
   "theorems": [
    "C29_references_never_share",
    "C29_left_join_any_interleaving"
   ],
   "note": ""
  },
  {
   "property": "C30",
   "status": "proved",
   "theorems": [
    "C30_inclusion_is_of_points",
    "C30_union_least",
    "C30_union_semilattice",
    "C30_union_semilattice_eqv",
    "C30_union_all"
   ],
   "note": ""
  },
  {
   "property": "C31",
   "status": "proved",
   "theorems": [
    "C31_intersects_iff_meet",
    "C31_intersects_symmetric",
    "C31_box_intersects_point"
   ],
   "note": ""
  },
  {
   "property": "C32",
   "status": "partial",
   "theorems": [
    "C32_contains_box_refuted",
    "C32_contains_point_refuted",
    "C32_contains_box_partial",
    "C32_contains_point_partial"
   ],
   "note": "REFUTED by the code as documented: the _refuted theorem proves the negation on a concrete reachable history; the _partial theorem proves what does hold."
  },
  {
   "property": "C33",
   "status": "proved",
   "theorems": [
    "C33_box_query",
    "C33_point_query"
   ],
   "note": ""
  },
  {
   "property": "C34",
   "status": "partial",
   "theorems": [
    "C34_contains_box_refuted",
    "C34_contains_point_refuted",
    "C34_contains_box_partial",
    "C34_contains_point_partial"
   ],
   "note": "REFUTED by the code as documented: the _refuted theorem proves the negation on a concrete reachable history; the _partial theorem proves what does hold."
  },
  {
   "property": "C35",
   "status": "proved",
   "theorems": [
    "C35_nearest_points",
    "C35_nearest_boxes",
    "C35_box_distance_is_minimum"
   ],
   "note": ""
  },
  {
   "property": "C36",
   "status": "proved",
   "theorems": [
    "C36_box_distance",
    "C36_never_prunes"
   ],
   "note": ""
  },
  {
   "property": "C37",
   "status": "partial",
   "theorems": [
    "C37_exact_arithmetic_partial",
    "C37_bounds_contain",
    "C37_rounding_refuted",
    "C37_overflow_refuted",
    "C37_i32_partial",
    "C37_line_query_partial"
   ],
   "note": "Exact in exact arithmetic (C37_exact_arithmetic_partial; IEEE infinities/NaN kept, no rounding); bounds theorem for every scalar. With i32 coordinates and f64 parameters the property is false: rounding can lose a touching point (49*(1/49)<1) and a delta can overflow (_refuted). Proved instead: soundness, and completeness for segments sharing more than one point with the box, for segments spanning at most 2^25 per dimension; and line queries return exactly the boxes that pass the test."
  },
  {
   "property": "C38",
   "status": "partial",
   "theorems": [
    "C38_behind_refuted",
    "C38_on_face_refuted",
    "C38_flat_box_refuted",
    "C38_exact_arithmetic_partial",
    "C38_i32_partial",
    "C38_ray_query_partial"
   ],
   "note": "False as stated: boxes behind the origin are accepted, rays along a face orthogonal to axis 0 and flat boxes are rejected (_refuted). Proved instead: the exact characterisation of what the test decides in exact arithmetic, its f64/i32 version up to rounding in a single point, and exactness of ray queries relative to the test."
  },
  {
   "property": "C39",
   "status": "partial",
   "theorems": [
    "C39_exact_arithmetic_partial",
    "C39_bounds_overflow_refuted",
    "C39_negative_radius_refuted",
    "C39_rounding_refuted",
    "C39_sphere_query_partial"
   ],
   "note": "REFUTED as stated: (1) when center +- radius overflows the coordinate type the bounding box wraps and a query misses the sphere's own center; (2) a sphere of negative radius matches points but has an inverted bounding box; (3) for radii above 94906265 the f64 rounding accepts points outside. The _partial theorems prove the property in exact arithmetic, and for i32 whenever radius >= 0 and the sphere lies in the coordinate range (exact distance up to radius 94906265)."
  },
  {
   "property": "C40",
   "status": "partial",
   "theorems": [
    "C40_find_again_refuted",
    "C40_find_again_partial"
   ],
   "note": "See the theorem comments: the _refuted theorem proves the negation of the documented claim on a concrete reachable case and the other theorems prove what does hold."
  },
  {
   "property": "C41",
   "status": "proved",
   "theorems": [
    "C41_split_partition",
    "C41_split_bounds",
    "C41_split_bounds_exact"
   ],
   "note": ""
  },
  {
   "property": "C42",
   "status": "proved",
   "theorems": [
    "C42_select",
    "C42_insert_descends",
    "C42_floats",
    "C42_i32",
    "C42_unsigned"
   ],
   "note": " The hypothesis is volume_laws (Spec.v): only the volumes of boxes and their differences are totally preordered. C42_i32, C42_unsigned: no hypothesis on volumes at all (wrapped volumes are still finite doubles). C42_floats: boxes of N32 or N64 in the window of C82."
  },
  {
   "property": "C43",
   "status": "partial",
   "theorems": [
    "C43_zero_sized_elements_refuted",
    "C43_zero_sized_elements_are_lost_partial",
    "C43_sized_elements_partial"
   ],
   "note": "REFUTED by the code as documented: the _refuted theorem proves the negation on a concrete reachable history; the _partial theorem proves what does hold. IntoIter's end pointer equals its start pointer when size_of::<T>() is 0."
  },
  {
   "property": "C44",
   "status": "partial",
   "theorems": [
    "C44_seeds_refuted",
    "C44_seeds_partial",
    "C44_floats_partial",
    "C44_groups_partial",
    "C44_i32_partial",
    "C44_unsigned_partial"
   ],
   "note": "REFUTED by the code: worst_combination does not return the pair of greatest joint volume on a concrete list of boxes; the other theorem(s) prove what does hold. C44_groups_partial: the two groups returned by a split start with that pair; C44_i32_partial, C44_unsigned_partial: the same for boxes of integers (up to 33 or 31 dimensions), with no hypothesis on volumes. C44_floats_partial: the same for boxes of N32 or N64 in the window of C82."
  },
  {
   "property": "C46",
   "status": "partial",
   "theorems": [
    "C46_new_vec_defined_refuted",
    "C46_new_vec_defined_iff_partial"
   ],
   "note": "REFUTED by the code as documented: the _refuted theorem proves the negation on a concrete reachable history; the _partial theorem proves what does hold. Layout::array of zero bytes is passed to alloc::alloc."
  },
  {
   "property": "C45",
   "status": "partial",
   "theorems": [
    "C45_empty_tree_refuted",
    "C45_no_overflow_partial",
    "C45_search_points_partial",
    "C45_search_boxes_partial"
   ],
   "note": "REFUTED for the empty tree: its root bounds are the inverted extreme box and the distance to them overflows i32 (panic in builds with overflow checks, C45_empty_tree_refuted). The _partial theorem proves the rest: every non-empty reachable tree with min_children >= 1. C45_search_points_partial and C45_search_boxes_partial run whole searches (the heap of the iterator included) in the checked build: no call of next panics and the entries come in order of distance."
  },
  {
   "property": "C47",
   "status": "partial",
   "theorems": [
    "C47_wide_boxes_refuted",
    "C47_box_distance_partial",
    "C47_distance_join_partial"
   ],
   "note": "REFUTED for boxes whose facing sides differ by 2^31 or more: the subtraction is done in i32 and wraps (panics in checked builds), so a wide box is at a positive distance from itself. The _partial theorems prove the property whenever no coordinate difference overflows (any window narrower than 2^31)."
  },
  {
   "property": "C48",
   "status": "partial",
   "theorems": [
    "C48_no_ub_refuted",
    "C48_no_ub_partial",
    "C48_owned_once_partial"
   ],
   "note": "REFUTED for max_children = 1 with a bounds type that has a destructor: NodeContainer::branch panics while it holds a ptr::read copy of the root, whose bounds are then destroyed twice. The _partial theorems prove the property for all other trees. Modelled: every call of user code may panic (crash), the library's own panics, destructors of locals; not modelled: destructors that panic, order of destruction of locals."
  },
  {
   "property": "C49",
   "status": "proved",
   "theorems": [
    "C49_every_call",
    "C49_trees_still_sound",
    "C49_agrees_without_panics"
   ],
   "note": "For trees with max_children <> 1 or bounds without destructor (else C48 is refuted)."
  },
  {
   "property": "C50",
   "status": "partial",
   "theorems": [
    "C50_nothing_lost_refuted",
    "C50_nothing_lost_partial",
    "C50_calm_partial"
   ],
   "note": "REFUTED: an insert that panics while splitting destroys the entries already moved to the second group (or the whole new sibling). The _partial theorem: calls other than insert, insert_unique and remove change nothing when they panic, and no call touches another tree; C49_every_call bounds what insert and remove leave. C50_calm_partial: an insertion into a tree none of whose nodes is full loses nothing when it panics, and a removal from a tree whose nodes are above their minimum loses at most one entry, a match."
  },
  {
   "property": "C51",
   "status": "partial",
   "theorems": [
    "C51_calm_get_partial",
    "C51_calm_filter_partial",
    "C51_calm_remove_partial",
    "C51_still_found_refuted",
    "C51_found_is_stored_partial"
   ],
   "note": "REFUTED: an insert that panics on the way up leaves parents whose bounds do not cover the new entry. The _partial theorems: whatever get finds is stored under a matching key; and if every call that panicked was calm (inserted into a tree without full nodes, removed from a tree whose nodes but the root are above their minimum, or was another kind of call) and did not insert a key matching the query, then get and filtered iteration see exactly what is stored and remove takes a matching stored entry out whenever there is one. Missing: lookups after panics inside splits and merges, and of the key whose insertion panicked."
  },
  {
   "property": "C52",
   "status": "partial",
   "theorems": [
    "C52_calm_partial",
    "C52_no_own_panic_refuted",
    "C52_no_own_panic_partial"
   ],
   "note": "REFUTED: two panicking removals leave an inner root without children, on which insert panics by itself (unwrap in select). The _partial theorems: new, get_mut, clone and drop panic only if user code does, in any configuration; and in supported configurations, if all earlier panicking calls were calm, every call panics only if user code does. Missing: insertions and removals after panics inside splits and merges (refuted in general)."
  },
  {
   "property": "C53",
   "status": "partial",
   "theorems": [
    "C53_no_leak_refuted",
    "C53_no_leak_partial",
    "C53_leak_free_partial",
    "C53_leak_free_program_partial"
   ],
   "note": "REFUTED: a panicking clone leaks the vectors below the nodes already cloned (bare Node values do not destroy their children). The _partial theorem: if no call panicked nothing leaks. C53_leak_free_partial / C53_leak_free_program_partial: a panicking new, replace, lookup, clone of a height-0 tree, insertion into a tree without full inner nodes, or removal from a tree whose nodes are above their minimum leaks nothing."
  },
  {
   "property": "C54",
   "status": "partial",
   "theorems": [
    "C54_layouts_match_refuted",
    "C54_layouts_match_partial",
    "C54_box_fields_partial"
   ],
   "note": "REFUTED for the contract of Vec::with_capacity (may reserve more than asked): the stack of an iterator is leaked from such a vector and given back as a box of its length. The _partial theorem: if with_capacity reserves exactly what was asked, no return is undefined, in any order, and nothing is left over; box_layout is what the compiler computes for the box."
  },
  {
   "property": "C55",
   "status": "partial",
   "theorems": [
    "C55_same_or_panic_partial",
    "C55_points_in_window_partial",
    "C55_boxes_in_window_partial",
    "C55_no_panic_in_window_partial",
    "C55_wide_refuted",
    "C55_min0_refuted",
    "C55_dim0_refuted",
    "C55_volume_returns_i32_partial"
   ],
   "note": "REFUTED: keys whose coordinates are 2^31 or more apart overflow in Volume::volume; with min_children = 0 an emptied leaf has the bounds (MAX, MIN), whose extent overflows whatever the keys; D = 0 panics at the first split. The _partial theorems: any checked build gives the same outcome or panics; with all keys in a window of less than 2^31 (and 2^(k D) within f64), and min_children >= 1 or no removals, the outcome is the same for every history, so no panic in supported configurations."
  },
  {
   "property": "C56",
   "status": "proved",
   "theorems": [
    "C56_counts_the_model",
    "C56_insert",
    "C56_remove",
    "C56_insert_log",
    "C56_remove_log",
    "C56_split_exact",
    "C56_insert_at_least"
   ],
   "note": "Counts calls of Bounds::union, Volume::volume and N64::sub, not comparisons, allocations or moves."
  },
  {
   "property": "C57",
   "status": "proved",
   "theorems": [
    "C57_comparisons",
    "C57_get_point",
    "C57_get_box",
    "C57_remove_point",
    "C57_insert_unique_point",
    "C57_remove_box",
    "C57_insert_unique_box",
    "C57_query_points",
    "C57_query_boxes"
   ],
   "note": "Floats are Coq's SpecFloat with the validity of the format; NaN is excluded as noisy_float does. Release build (C55 is about checks)."
  },
  {
   "property": "C58",
   "status": "partial",
   "theorems": [
    "C58_infinite_least_refuted",
    "C58_infinite_check_refuted",
    "C58_finite_points_partial",
    "C58_finite_boxes_partial"
   ],
   "note": "REFUTED with infinite coordinates: the empty bounds (MAX, MIN) are finite, so a leaf with one point at +inf has bounds [MAX, inf], and after a split _debug_assert_bvh panics (cover, hence every lookup and query, is unaffected: C57). The _partial theorems prove both claims for finite coordinates, up to the sign of zero."
  },
  {
   "property": "C59",
   "status": "proved",
   "theorems": [
    "C59_no_nan_points",
    "C59_no_nan_boxes",
    "C59_nearest_points",
    "C59_nearest_boxes"
   ],
   "note": "The operators of NoisyFloat are modelled as those of the float; C59_no_nan_* show that no NaN reaches them, so debug and release builds agree. Keys or query points with infinite coordinates (inf - inf) are excluded."
  },
  {
   "property": "C60",
   "status": "partial",
   "theorems": [
    "C60_distance_error_partial",
    "C60_nearest_points_partial",
    "C60_nearest_boxes_partial",
    "C60_true_order_refuted"
   ],
   "note": "REFUTED: rounding can invert the order (two doubles in 3-D, relative difference about 2^-53). The _partial theorems bound the inversion: an entry yielded earlier is at most a factor ((1+u)/(1-u))^(D+2), u = 2^-p, and the underflow of D squares farther away, for D dimensions."
  },
  {
   "property": "C61",
   "status": "proved",
   "theorems": [
    "C61_intersects_contains_filters",
    "C61_bounded_filters",
    "C61_bounds_test_is_unobservable"
   ],
   "note": "Added after mutant S58 (BoundedContainsFilter testing bounds with contains) survived: for boxes the crate's contains is its intersects (C32), so only a theorem about any bounds type can tell."
  },
  {
   "property": "C62",
   "status": "proved",
   "theorems": [
    "C62_filter_asks",
    "C62_join_asks",
    "C62_asked_once"
   ],
   "note": "C62_asked_once spells out what explore implies: order, no duplicates, number of questions at most nodes plus entries."
  },
  {
   "property": "C63",
   "status": "proved",
   "theorems": [
    "C63_filter_panics",
    "C63_join_panics"
   ],
   "note": "The entries missed are named by explore (FxSpec.v): those at or below a question answered by a panic."
  },
  {
   "property": "C64",
   "status": "proved",
   "theorems": [
    "C64_best_first",
    "C64_each_once",
    "C64_lazy"
   ],
   "note": "best_first (FxSortedSpec.v) is the specification of the search; C64_each_once and C64_lazy are what it implies. Assumed: Ord::cmp of the metric is a function that does not panic."
  },
  {
   "property": "C65",
   "status": "partial",
   "theorems": [
    "C65_ranking_panics_partial",
    "C65_ranking_panics_refuted"
   ],
   "note": "REFUTED: the node was already popped when the ranking of one of its children panics, so this child's later siblings are lost too. The _partial theorem: the yielded entries ascend, none is yielded twice, and what is lost is exactly what lies at or below the panicking child and its later siblings (best_first); nothing without panics."
  },
  {
   "property": "C66",
   "status": "proved",
   "theorems": [
    "C66_left_entries",
    "C66_each_once",
    "C66_right_iterators"
   ],
   "note": "left_walk and prune (FxLeftSpec.v) are the specification; the questions are those that llogged writes down."
  },
  {
   "property": "C67",
   "status": "proved",
   "theorems": [
    "C67_left_join_panics"
   ],
   "note": "The outer iteration may have unwound any number of times before the entry came out. The borrowed form of a key is assumed to have the key's bounds."
  },
  {
   "property": "C68",
   "status": "partial",
   "theorems": [
    "C68_space_refuted",
    "C68_space_partial",
    "C68_at_most_len_partial",
    "C68_quadratic_partial",
    "C68_lower_partial"
   ],
   "note": "REFUTED for min_children = 0: emptied nodes stay, so trees without entries can have arbitrarily many nodes (for every max_children >= 2). _partial: the linear bound whenever guaranteed_fill >= 2 (in particular 2 <= min_children <= max_children - 2), fewer levels than entries and a quadratic bound for every other min_children >= 2, and the lower bound len <= max_children * nodes for every configuration."
  },
  {
   "property": "C69",
   "status": "proved",
   "theorems": [
    "C69_volume_returns",
    "C69_points",
    "C69_boxes",
    "C69_no_panic",
    "C69_min0_needed"
   ],
   "note": "All histories of points and of valid boxes for every unsigned type up to 32 bits; C69_min0_needed shows why min_children >= 1 (or no removal) is part of the statement: an emptied node has the inverted extreme bounds, whose extent underflows."
  },
  {
   "property": "C70",
   "status": "partial",
   "theorems": [
    "C70_nearest_release_partial",
    "C70_distance_checked",
    "C70_box_distance_checked",
    "C70_never_below_partial",
    "C70_search_refuted",
    "C70_search_points_partial",
    "C70_search_boxes_partial",
    "C70_sphere_refuted",
    "C70_sphere_partial",
    "C70_box_distance_refuted",
    "C70_box_distance_partial",
    "C70_box_distance_checked_refuted",
    "C70_line_refuted",
    "C70_line_partial"
   ],
   "note": "REFUTED: with overflow checks a nearest neighbour search panics unless the query point is at most the key in every coordinate (C70_search_refuted, C70_distance_checked: exact condition; C70_never_below_partial: no search ever yields another key); spheres miss the points below their center (C70_sphere_refuted); sq_dist_to is huge for overlapping boxes and panics for every pair of boxes but one equal point (C70_box_distance_refuted, C70_box_distance_checked_refuted); segments miss boxes they lie in (C70_line_refuted). _partial: release nearest neighbour search is exact (wrapping squares cancel); checked search from below; spheres restricted to the upper orthant; segments going up from below the box. Release build, sq_dist_to: only the distance of a point to itself is right (C70_box_distance_partial)."
  },
  {
   "property": "C71",
   "status": "proved",
   "theorems": [
    "C71_debug_shows",
    "C71_shown_entries",
    "C71_debug_text",
    "C71_text_determines_tree",
    "C71_i32_text_determines_tree"
   ],
   "note": "The builders of core::fmt are modelled as documented (trusted). C71_debug_shows and C71_shown_entries hold for both forms; exact text and injectivity are stated for {:?}. The configuration is not part of the text."
  },
  {
   "property": "C72",
   "status": "proved",
   "theorems": [
    "C72_no_ub",
    "C72_drop_exact",
    "C72_units_are_the_tree",
    "C72_few_panics"
   ],
   "note": "Destructors that panic are modelled where a tree is dropped; a key destructor that panics inside remove is the same as a panic of the bounds call after it (C48-C53). Other destructors that run inside calls (the key insert_unique discards, replaced bounds) are assumed not to panic. unwind_ok as in C48: bounds without destructors, or max_children not 1."
  },
  {
   "property": "C73",
   "status": "partial",
   "theorems": [
    "C73_rest_destroyed_refuted",
    "C73_what_is_leaked_partial"
   ],
   "note": "REFUTED: the loops over children and elements are left at the panic, so all later entries, their vectors and bounds, and the vectors up to the root leak. C73_what_is_leaked_partial says exactly what is leaked. Missing: nothing; the property is false of the code."
  },
  {
   "property": "C74",
   "status": "partial",
   "theorems": [
    "C74_query_partial",
    "C74_integers_partial",
    "C74_no_nan_partial",
    "C74_missed_n64_refuted",
    "C74_missed_n32_refuted",
    "C74_far_outside_refuted",
    "C74_depends_on_tree_refuted"
   ],
   "note": "REFUTED: entries inside are missed (C74_missed_n64_refuted, C74_missed_n32_refuted), radii whose square overflows or underflows yield entries 2^100 radii away (C74_far_outside_refuted), and whether an accepted entry on the edge is found depends on the other entries (C74_depends_on_tree_refuted). What holds: the query is exact up to an explicit relative error of the squared distance (C74_query_partial), exact for integer coordinates in the range where squares are exact (C74_integers_partial), and no NaN arises (C74_no_nan_partial)."
  },
  {
   "property": "C75",
   "status": "partial",
   "theorems": [
    "C75_query_partial",
    "C75_accuracy_partial",
    "C75_near_query_partial",
    "C75_n32_query_partial",
    "C75_missed_refuted",
    "C75_false_positive_refuted",
    "C75_bounded_depends_on_tree_refuted",
    "C75_far_off_refuted",
    "C75_missed_tiny_refuted"
   ],
   "note": "REFUTED: a touching box is missed (C75_missed_refuted), a box just beyond the end is yielded (C75_false_positive_refuted) and with the bounded filter whether it is yielded depends on the other entries (C75_bounded_depends_on_tree_refuted); where a difference overflows or its inverse does the error is not small (C75_far_off_refuted, C75_missed_tiny_refuted). What holds: the plain query yields exactly the entries that pass the segment's own test, whatever the tree, even with infinite boxes (C75_query_partial); the test is exact up to moving each side by 3(2^-p + 2^-53) of its distance from the start (C75_accuracy_partial), and so are both queries (C75_near_query_partial), for N32 whenever no coordinate exceeds 2^126 (C75_n32_query_partial)."
  },
  {
   "property": "C76",
   "status": "partial",
   "theorems": [
    "C76_query_partial",
    "C76_accuracy_partial",
    "C76_n32_query_partial",
    "C76_behind_refuted",
    "C76_on_face_refuted",
    "C76_flat_box_refuted"
   ],
   "note": "REFUTED: boxes behind the origin are yielded (C76_behind_refuted); a ray along a face (C76_on_face_refuted) and a flat box (C76_flat_box_refuted) are missed. What holds: the query yields exactly the entries that pass the ray's own test, whatever the tree (C76_query_partial); the test decides, up to moving each side by 3(2^-p + 2^-53) of its distance from the origin, whether the whole line through the origin shares more than one point with the box (C76_accuracy_partial, C76_n32_query_partial)."
  },
  {
   "property": "C77",
   "status": "partial",
   "theorems": [
    "C77_i32_partial",
    "C77_i32_exact_partial",
    "C77_i32_zero_partial",
    "C77_i32_overflow_refuted",
    "C77_floats_partial",
    "C77_integers_partial",
    "C77_underflow_refuted",
    "C77_overflow_refuted"
   ],
   "note": "REFUTED: a difference of i32 coordinates that overflows wraps around (C77_i32_overflow_refuted); squaring underflows, so two different points have distance 0 (C77_underflow_refuted), and overflows, so the length 2^600 is returned as infinity (C77_overflow_refuted). What holds: for i32 coordinates without overflow of a difference both results have a relative error of about 2^-53 per operation (C77_i32_partial), are exact up to a squared length of 2^53 (C77_i32_exact_partial) and are 0 exactly if the ends are equal (C77_i32_zero_partial); for floats the same with an absolute error for underflow, and the length is infinite only from about 2^512 (2^128 for N32) (C77_floats_partial); integer coordinates are exact (C77_integers_partial)."
  },
  {
   "property": "C78",
   "status": "proved",
   "theorems": [
    "C78_no_ub",
    "C78_owned_once",
    "C78_every_call",
    "C78_trees_sound",
    "C78_queries",
    "C78_joins",
    "C78_left_joins",
    "C78_ordered",
    "C78_no_panic"
   ],
   "note": "All calls of user code between two changes of the data structure form a numbered group, and an oracle gives every answer of every group, so nothing is assumed of the traits and a run covers code that decides as it goes. C78_no_ub and C78_owned_once: memory; C78_every_call: effect on the contents; C78_trees_sound: len, iteration and destruction; C78_queries and C78_joins: iterators of filter and join on such trees, with effectful queries, explore the tree as in C62; C78_left_joins, C78_ordered: left joins and ordered iterators on such trees (as in C66, C79); C78_no_panic: no panics and fill of the nodes. Not modelled: panics in destructors, the order in which locals are destroyed."
  },
  {
   "property": "C79",
   "status": "proved",
   "theorems": [
    "C79_any_order",
    "C79_each_once",
    "C79_complete"
   ],
   "note": "C79_any_order: safety and the course of any search; C79_each_once: what that means for the entries; C79_complete: both for a ranking that ranks everything. The priority queue is abstract: encapsulated is what std documents for a senseless Ord (it hands out each pushed item at most once), lossless what its code does (it loses items only if a comparison panics). C79_example instantiates both."
  },
  {
   "property": "C80",
   "status": "partial",
   "theorems": [
    "C80_i32_partial",
    "C80_i32_monotone_partial",
    "C80_i32_union_partial",
    "C80_i32_refuted",
    "C80_unsigned",
    "C80_unsigned_monotone",
    "C80_floats_partial",
    "C80_floats_monotone_partial",
    "C80_floats_refuted"
   ],
   "note": "REFUTED for i32 boxes 2^31 or more wide (max - min wraps: negative volume, less than that of a box inside; C80_i32_refuted) and for floats (a width that overflows times 0 is NaN; a tiny box underflows to 0; C80_floats_refuted). Proved: i32 boxes narrower than 2^31 in up to 33 dimensions (C80_i32_partial, C80_i32_monotone_partial, C80_i32_union_partial), all u8/u16/u32 boxes in up to 31 dimensions (C80_unsigned, C80_unsigned_monotone), floats whenever the computed volume is finite (C80_floats_partial: the exact sequence of roundings; C80_floats_monotone_partial)."
  },
  {
   "property": "C81",
   "status": "partial",
   "theorems": [
    "C81_floats_partial",
    "C81_refuted",
    "C81_rule_partial",
    "C81_partial",
    "C81_i32_partial",
    "C81_unsigned_partial",
    "C81_leaf_partial",
    "C81_inner_partial"
   ],
   "note": "REFUTED (C81_refuted: maximum 4, minimum 2, the points 0, 100, 99, 98, 97 on a line: the first group, seeded with 0, gets two of the points near 100 although it needs only one): the code lets the first group claim all that remain when with them it has min+1 elements. Proved: the rule with min+1 in place of min for the first group when 2*min <= max (C81_partial; C81_i32_partial and C81_unsigned_partial without hypotheses on volumes; C81_leaf_partial, C81_inner_partial: as the effect of an insertion on a full node), and the exact rule for every minimum (C81_rule_partial). C81_floats_partial: boxes of N32 or N64 in the window of C82, without hypotheses on volumes."
  },
  {
   "property": "C82",
   "status": "partial",
   "theorems": [
    "C82_points_in_window_partial",
    "C82_boxes_in_window_partial",
    "C82_no_panic_in_window_partial",
    "C82_agrees_or_panics_partial",
    "C82_refuted",
    "C82_infinite_refuted"
   ],
   "note": "REFUTED for finite coordinates (C82_refuted: five insertions in the plane with two extreme abscissas: infinite times 0) and for infinite ones (C82_infinite_refuted: inf - inf). Proved: agreement when all coordinates are at most 2^k in absolute value, k+1 < e and (k+1)*D <= 1023, for points and boxes (C82_points_in_window_partial, C82_boxes_in_window_partial), hence no panic (C82_no_panic_in_window_partial); unconditionally: the debug build agrees or panics (C82_agrees_or_panics_partial)."
  },
  {
   "property": "C83",
   "status": "proved",
   "theorems": [
    "C83_index",
    "C83_add_sub",
    "C83_add_assign",
    "C83_add_assign_is_add",
    "C83_not_atomic",
    "C83_into_map",
    "C83_order"
   ],
   "note": "C83_not_atomic: in a debug build a += b that panics may have changed a."
  },
  {
   "property": "C84",
   "status": "proved",
   "theorems": [
    "C84_same_answers",
    "C84_like_answers",
    "C84_same_queries"
   ],
   "note": "supported configurations (C23); is_empty is called only if min_children is not 0 (C08)."
  },
  {
   "property": "C85",
   "status": "proved",
   "theorems": [
    "C85_volume_returns",
    "C85_points",
    "C85_boxes",
    "C85_no_panic",
    "C85_window_needed",
    "C85_volume",
    "C85_volume_monotone",
    "C85_select",
    "C85_seeds",
    "C85_distribution",
    "C85_box_query",
    "C85_nearest",
    "C85_nearest_checked",
    "C85_nearest_boxes_checked",
    "C85_fit_needed"
   ],
   "note": "coordinates in a window less than half the range wide (needed: C85_window_needed), squared distances that fit (needed: C85_fit_needed); at most 31 dimensions of 32 bits; min_children at least 1 or no removals, as in C69."
  },
  {
   "property": "C86",
   "status": "proved",
   "theorems": [
    "C86_storage_written",
    "C86_dropped_once",
    "C86_right_iterators"
   ],
   "note": "the callbacks of init_into are functions without state of their own (those of the crate have none); IterStack::map, which nothing calls, is not modelled."
  }
 ]
}