{
 "claims": [
  {
   "property": "C01",
   "status": "proved",
   "theorems": [
    "C01_insert_find"
   ],
   "note": ""
  },
  {
   "property": "C02",
   "status": "proved",
   "theorems": [
    "C02_insert_refused"
   ],
   "note": ""
  },
  {
   "property": "C03",
   "status": "proved",
   "theorems": [
    "C03_insert_replace"
   ],
   "note": ""
  },
  {
   "property": "C04",
   "status": "proved",
   "theorems": [
    "C04_remove"
   ],
   "note": ""
  },
  {
   "property": "C05",
   "status": "proved",
   "theorems": [
    "C05_size"
   ],
   "note": ""
  },
  {
   "property": "C06",
   "status": "proved",
   "theorems": [
    "C06_visit"
   ],
   "note": ""
  },
  {
   "property": "C07",
   "status": "proved",
   "theorems": [
    "C07_histories"
   ],
   "note": "The alternative disjunct is the debug-build panic characterised under C11."
  },
  {
   "property": "C08",
   "status": "proved",
   "theorems": [
    "C08_contents_decide"
   ],
   "note": ""
  },
  {
   "property": "C09",
   "status": "proved",
   "theorems": [
    "C09_persistence",
    "C09_versions"
   ],
   "note": "On a heap of immutable allocations: insert, remove, find, visit and clone run on it; where the bulk operations put their result is left open, except that they only add cells. No frees: the claim is about maps the client keeps."
  },
  {
   "property": "C10",
   "status": "proved",
   "theorems": [
    "C10_release_total"
   ],
   "note": ""
  },
  {
   "property": "C11",
   "status": "partial",
   "theorems": [
    "C11_debug_total_refuted",
    "C11_insert_panics_iff",
    "C11_remove_panics_iff",
    "C11_fresh_hash_partial",
    "C11_separated_partial"
   ],
   "note": "The full claim is refuted with a witness; the exact panic condition and two positive fragments are proved."
  },
  {
   "property": "C12",
   "status": "proved",
   "theorems": [
    "C12_find_total"
   ],
   "note": ""
  },
  {
   "property": "C13",
   "status": "proved",
   "theorems": [
    "C13_collisions"
   ],
   "note": ""
  },
  {
   "property": "C14",
   "status": "proved",
   "theorems": [
    "C14_insert_remove",
    "C14_remove_insert"
   ],
   "note": ""
  },
  {
   "property": "C15",
   "status": "proved",
   "theorems": [
    "C15_transform"
   ],
   "note": ""
  },
  {
   "property": "C16",
   "status": "proved",
   "theorems": [
    "C16_reduction",
    "C16_calls"
   ],
   "note": ""
  },
  {
   "property": "C17",
   "status": "proved",
   "theorems": [
    "C17_strategy_tt",
    "C17_strategy_tm",
    "C17_strategy_mt",
    "C17_strategy_set_transform",
    "C17_strategy_set_tt",
    "C17_strategy_transform"
   ],
   "note": "Both strategies agree on every pair of reachable maps and every operation, also when the call panics or does not terminate."
  },
  {
   "property": "C18",
   "status": "proved",
   "theorems": [
    "C18_unchanged"
   ],
   "note": "Identity of the root is modelled by the origin of the returned root (Self = clone of the receiver's Arc)."
  },
  {
   "property": "C19",
   "status": "partial",
   "theorems": [
    "C19_joint_constants_partial",
    "C19_joint_constants_refuted",
    "C19_constants_transform",
    "C19_constants_transmute"
   ],
   "note": "Proved for transform, transmute and the joint constants UnchangedLR and Removed; refuted for UnchangedL and UnchangedR, whose exact behaviour is C71."
  },
  {
   "property": "C20",
   "status": "proved",
   "theorems": [
    "C20_transmute"
   ],
   "note": ""
  },
  {
   "property": "C21",
   "status": "partial",
   "theorems": [
    "C21_transform_with_transformed_partial",
    "C21_collision_free_partial",
    "C21_one_sided_partial",
    "C21_unchanged_left_refuted",
    "C21_unchanged_right_refuted",
    "C21_keep_right_refuted",
    "C21_duplicate_refuted",
    "C21_dropped_refuted",
    "C21_transformed_refuted",
    "C21_panic_refuted"
   ],
   "note": "False in general: refuted with witnesses (one-sided constants, keep-right closures on collision lists, duplicates, undropped entries, panic). Proved for tame operations, in particular all maps without colliding hashes and all operations except the one-sided constants. What the one-sided constants do instead is C71."
  },
  {
   "property": "C22",
   "status": "proved",
   "theorems": [
    "C22_reduction_tm",
    "C22_reduction_mt",
    "C22_reduction_mm",
    "C22_reduction_tt",
    "C22_reduction_tt_any"
   ],
   "note": "All four families, every returning call with generic operations."
  },
  {
   "property": "C23",
   "status": "proved",
   "theorems": [
    "C23_transform_with_transmuted"
   ],
   "note": ""
  },
  {
   "property": "C24",
   "status": "proved",
   "theorems": [
    "C24_transmute_with_transformed"
   ],
   "note": ""
  },
  {
   "property": "C25",
   "status": "proved",
   "theorems": [
    "C25_transmute_with_transmuted"
   ],
   "note": ""
  },
  {
   "property": "C26",
   "status": "proved",
   "theorems": [
    "C26_union",
    "C26_intersection",
    "C26_difference",
    "C26_symmetric_difference",
    "C26_set_union",
    "C26_set_intersection",
    "C26_set_difference",
    "C26_set_symmetric_difference"
   ],
   "note": ""
  },
  {
   "property": "C27",
   "status": "proved",
   "theorems": [
    "C27_histories",
    "C27_forgets_values",
    "C27_transform",
    "C27_transmute",
    "C27_transform_with_transmuted",
    "C27_transmute_with_transformed",
    "C27_transmute_with_transmuted",
    "C27_transform_with_transformed"
   ],
   "note": "transform_with_transformed on the domain of C21."
  },
  {
   "property": "C28",
   "status": "proved",
   "theorems": [
    "C28_terminates_tm",
    "C28_terminates_mt",
    "C28_terminates_mm",
    "C28_terminates_refuted",
    "C28_terminates_tt",
    "C28_terminates_tt_refuted",
    "C28_stuck_mm",
    "C28_stuck_tt",
    "C28_exact_mm",
    "C28_exact_tt"
   ],
   "note": "Termination itself is refuted for every loop bound; the exact condition is proved for all four operations."
  },
  {
   "property": "C29",
   "status": "proved",
   "theorems": [
    "C29_count_ones",
    "C29_one_bit",
    "C29_contains",
    "C29_index",
    "C29_insert",
    "C29_remove",
    "C29_merge",
    "C29_nth_bit",
    "C29_count_errors",
    "C29_log"
   ],
   "note": ""
  },
  {
   "property": "C30",
   "status": "partial",
   "theorems": [
    "C30_narrow_hashers_refuted",
    "C30_panics_iff_too_wide",
    "C30_wide_hashers_partial"
   ],
   "note": "Refuted for narrow hashers; exact panic condition and the wide case are proved."
  },
  {
   "property": "C31",
   "status": "partial",
   "theorems": [
    "C31_flip_partial",
    "C31_flip_exact_partial",
    "C31_flip_refuted",
    "C31_flip_transform",
    "C31_flip_transmute",
    "C31_flip_twice",
    "C31_set_flip_partial",
    "C31_set_flip_refuted",
    "C31_set_transform",
    "C31_set_transmute"
   ],
   "note": "Refuted for the constants UnchangedL and UnchangedR; proved for exactly all others."
  },
  {
   "property": "C32",
   "status": "proved",
   "theorems": [
    "C32_lookup_cost"
   ],
   "note": ""
  },
  {
   "property": "C33",
   "status": "proved",
   "theorems": [
    "C33_equal",
    "C33_clone",
    "C33_transform",
    "C33_insert",
    "C33_remove",
    "C33_converse_refuted"
   ],
   "note": "The converse is refuted with a witness."
  },
  {
   "property": "C34",
   "status": "proved",
   "theorems": [
    "C34_tm_mt",
    "C34_tm_mm",
    "C34_tt_tm",
    "C34_tt_mt",
    "C34_tt_mm"
   ],
   "note": "Transform_with_transformed on the domain of C21."
  },
  {
   "property": "C35",
   "status": "proved",
   "theorems": [
    "C35_transform_with_transfuted",
    "C35_transfute_with_transformed",
    "C35_constants",
    "C35_keys_tf",
    "C35_keys_ft",
    "C35_terminates_tf",
    "C35_terminates_ft"
   ],
   "note": ""
  },
  {
   "property": "C36",
   "status": "partial",
   "theorems": [
    "C36_left_unchanged_partial",
    "C36_right_unchanged_partial",
    "C36_empty_partial",
    "C36_dropped_refuted",
    "C36_tm_unchanged_partial",
    "C36_mt_unchanged_partial",
    "C36_tm_empty_refuted",
    "C36_tm_collision_refuted",
    "C36_tm_dropped_refuted"
   ],
   "note": "transform_with_transformed hands back the left (right) map itself when the other map only has matching keys and no colliding hashes; against an empty map always. transform_with_transmuted and transmute_with_transformed hand back the transformed map when the transmuted one only has matching keys that collide with no other. The full claim is false: a dropped entry of the other map costs the sharing (C36_dropped_refuted, C36_tm_dropped_refuted), and where a map is transmuted so do colliding hashes (C36_tm_collision_refuted) and even an empty map (C36_tm_empty_refuted)."
  },
  {
   "property": "C37",
   "status": "proved",
   "theorems": [
    "C37_find_query",
    "C37_remove_query",
    "C37_insert_query"
   ],
   "note": ""
  },
  {
   "property": "C38",
   "status": "proved",
   "theorems": [
    "C38_returned_entry"
   ],
   "note": ""
  },
  {
   "property": "C39",
   "status": "proved",
   "theorems": [
    "C39_keys_tm",
    "C39_keys_mt",
    "C39_keys_tt",
    "C39_keys_tt_any",
    "C39_keys_tm_any",
    "C39_keys_mt_any",
    "C39_entries_mm_any"
   ],
   "note": "All families, every returning call (insert and transform by C02, C15)."
  },
  {
   "property": "C40",
   "status": "partial",
   "theorems": [
    "C40_compose_partial",
    "C40_compose_refuted"
   ],
   "note": "Proved for branching histories of every operation with transform_with_transformed on the domain of C21; refuted outside it with a witness."
  },
  {
   "property": "C41",
   "status": "proved",
   "theorems": [
    "C41_find",
    "C41_insert",
    "C41_remove"
   ],
   "note": ""
  },
  {
   "property": "C42",
   "status": "proved",
   "theorems": [
    "C42_remove_last",
    "C42_tm_removes_all",
    "C42_mt_removes_all",
    "C42_mm_removes_all",
    "C42_tt_removes_all",
    "C42_empty_is_new",
    "C42_transform_removes_all"
   ],
   "note": ""
  },
  {
   "property": "C43",
   "status": "proved",
   "theorems": [
    "C43_insert",
    "C43_remove"
   ],
   "note": "Heap model; see C09."
  },
  {
   "property": "C44",
   "status": "proved",
   "theorems": [
    "C44_insert",
    "C44_refused",
    "C44_find",
    "C44_remove"
   ],
   "note": "Heap model; see C09."
  },
  {
   "property": "C45",
   "status": "proved",
   "theorems": [
    "C45_size",
    "C45_find",
    "C45_insert",
    "C45_remove",
    "C45_transform",
    "C45_transmute"
   ],
   "note": "Joint operations on such maps: only where their entries come from (C39)."
  },
  {
   "property": "C46",
   "status": "proved",
   "theorems": [
    "C46_call",
    "C46_same",
    "C46_history",
    "C46_transform",
    "C46_tt",
    "C46_transmute",
    "C46_tm",
    "C46_mt",
    "C46_mm"
   ],
   "note": "Heap model of every operation. Closures are pure; cells are never freed. How much is rebuilt is C47."
  },
  {
   "property": "C47",
   "status": "proved",
   "theorems": [
    "C47_transform",
    "C47_transmute",
    "C47_tt",
    "C47_tm",
    "C47_mt",
    "C47_mm"
   ],
   "note": "Upper bounds; an entry of one map that meets an entry of the other is charged even if the closure keeps it. Cells are counted, not bytes."
  },
  {
   "property": "C48",
   "status": "proved",
   "theorems": [
    "C48_insert",
    "C48_remove",
    "C48_transform",
    "C48_kept",
    "C48_tt_left",
    "C48_tt_right",
    "C48_tm",
    "C48_mt",
    "C48_kept_tt_left",
    "C48_kept_tt_right",
    "C48_kept_tm",
    "C48_kept_mt",
    "C48_one_hash_refuted",
    "C48_tt_one_hash_refuted"
   ],
   "note": "For insert, remove, transform and the three map-valued joint operations; the joint find theorems assume tame / m_keeps, the kept theorems assume no contract. C48_one_hash_refuted and C48_tt_one_hash_refuted show the condition on the hash cannot be dropped."
  },
  {
   "property": "C49",
   "status": "proved",
   "theorems": [
    "C49_new",
    "C49_inserted",
    "C49_updated",
    "C49_removed",
    "C49_model",
    "C49_model_new",
    "C49_built",
    "C49_any_array_refuted"
   ],
   "note": "C49_any_array_refuted shows that the theorems need arrays made by the crate; C49_built covers those of every map."
  },
  {
   "property": "C50",
   "status": "proved",
   "theorems": [
    "C50_alive",
    "C50_counts",
    "C50_drop",
    "C50_step",
    "C50_contents",
    "C50_empty",
    "C50_answers",
    "C50_stays",
    "C50_holds",
    "C50_dangles"
   ],
   "note": "The clones and drops inside one call are taken together (their sum, C50_step, always exists). C50_dangles: the raw pointers insert returns keep nothing alive. Address reuse is not modelled: an address is one allocation."
  },
  {
   "property": "C51",
   "status": "proved",
   "theorems": [
    "C51_transform_calls",
    "C51_transform_makes",
    "C51_transform_once",
    "C51_transform_ends",
    "C51_transform_answers",
    "C51_transform_as",
    "C51_transform_functions",
    "C51_transmute_calls",
    "C51_transmute_once",
    "C51_transmute_ends",
    "C51_transmute_answers",
    "C51_transmute_as",
    "C51_transmute_functions",
    "C51_visit"
   ],
   "note": "Closures are events with any answer or a panic; reduce_op, Clone, Into, Eq and Hash remain functions. C51_transmute_ends assumes, like C20, that the keys made are equal to the keys seen."
  },
  {
   "property": "C52",
   "status": "proved",
   "theorems": [
    "C52_tm_calls",
    "C52_tm_once",
    "C52_tm_answers",
    "C52_tm_as",
    "C52_tm_functions",
    "C52_mt_calls",
    "C52_mt_once",
    "C52_mt_answers",
    "C52_mt_as",
    "C52_mt_functions",
    "C52_mm_calls",
    "C52_mm_once",
    "C52_mm_answers",
    "C52_mm_as",
    "C52_mm_functions",
    "C52_tt_calls",
    "C52_tt_once",
    "C52_tt_answers",
    "C52_tt_as",
    "C52_tt_functions",
    "C52_panic",
    "C52_tm_ends",
    "C52_mt_ends"
   ],
   "note": "Calls as a multiset (their order is the code's but not specified), results by reduction to functions; termination and results of the functions are C21-C28, C34-C37. C52_tm_ends and C52_mt_ends assume the exact condition of C28 and that the answers keep the keys."
  },
  {
   "property": "C53",
   "status": "proved",
   "theorems": [
    "C53_own",
    "C53_footprint",
    "C53_sizes",
    "C53_contract_needed"
   ],
   "note": "Overflow itself is not modelled (sizes are N); C53_sizes bounds sizes by the allocations alive. C53_contract_needed shows the contract on keys cannot be dropped."
  },
  {
   "property": "C54",
   "status": "proved",
   "theorems": [
    "C54_threads",
    "C54_call",
    "C54_schedules",
    "C54_spec",
    "C54_alone"
   ],
   "note": "Allocation is taken to be atomic and visible once the map is handed over (Arc, allocator). Reference counts under threads are C55."
  },
  {
   "property": "C55",
   "status": "proved",
   "theorems": [
    "C55_counts",
    "C55_safe",
    "C55_stays",
    "C55_drop",
    "C55_field",
    "C55_ends",
    "C55_quiet",
    "C55_empty",
    "C55_once",
    "C55_orders",
    "C55_calls",
    "C55_answers"
   ],
   "note": "Any client of Arc::new, clone, deref and drop, of which the crate's functions are examples; which Arcs each function clones on the way is not modelled. Sequentially consistent memory; the way to the Arc that is cloned is read in one step with the clone."
  },
  {
   "property": "C56",
   "status": "proved",
   "theorems": [
    "C56_faithful_find",
    "C56_faithful_insert",
    "C56_faithful_remove",
    "C56_size",
    "C56_find",
    "C56_remove",
    "C56_insert",
    "C56_calls_find",
    "C56_calls_remove",
    "C56_calls_insert",
    "C56_longest",
    "C56_steady_find",
    "C56_steady_insert",
    "C56_steady_misused"
   ],
   "note": "find, insert and remove on maps that may also have been transformed, transmuted (C59) and joined (C60). The steady claims assume that hashes are functions of the class and that clones and conversions keep them."
  },
  {
   "property": "C57",
   "status": "proved",
   "theorems": [
    "C57_transform_calls",
    "C57_transform_once",
    "C57_transform_ends",
    "C57_transform_answers",
    "C57_transform_as",
    "C57_transform_functions",
    "C57_transmute_calls",
    "C57_transmute_once",
    "C57_transmute_ends",
    "C57_transmute_answers",
    "C57_transmute_as",
    "C57_transmute_functions",
    "C57_visit",
    "C57_tm_calls",
    "C57_tm_once",
    "C57_tm_answers",
    "C57_tm_as",
    "C57_tm_functions",
    "C57_tm_ends",
    "C57_mt_calls",
    "C57_mt_once",
    "C57_mt_answers",
    "C57_mt_as",
    "C57_mt_functions",
    "C57_mt_ends",
    "C57_mm_calls",
    "C57_mm_once",
    "C57_mm_answers",
    "C57_mm_as",
    "C57_mm_functions",
    "C57_tt_calls",
    "C57_tt_once",
    "C57_tt_answers",
    "C57_tt_as",
    "C57_tt_functions",
    "C57_tf_calls",
    "C57_tf_once",
    "C57_tf_answers",
    "C57_tf_as",
    "C57_tf_functions",
    "C57_tf_ends",
    "C57_ft_calls",
    "C57_ft_once",
    "C57_ft_answers",
    "C57_ft_as",
    "C57_ft_functions",
    "C57_ft_ends"
   ],
   "note": "The closures of the wrappers are those of EffSet.v; flipped joint closures (JwClosure is not flipped) and reduce_op as events are left out, as in C52."
  },
  {
   "property": "C58",
   "status": "proved",
   "theorems": [
    "C58_set_transform_brackets",
    "C58_set_transmute_brackets",
    "C58_set_tm_brackets",
    "C58_set_mt_brackets",
    "C58_set_mm_brackets",
    "C58_set_tt_brackets",
    "C58_tf_brackets",
    "C58_ft_brackets",
    "C58_natural_transform",
    "C58_natural_transmute",
    "C58_natural_tm",
    "C58_natural_mt",
    "C58_natural_mm",
    "C58_natural_tt",
    "C58_contents_transform",
    "C58_contents_transmute",
    "C58_contents_tm",
    "C58_contents_mt",
    "C58_contents_mm",
    "C58_contents_tt",
    "C58_transform_brackets",
    "C58_transmute_brackets",
    "C58_tm_brackets",
    "C58_mt_brackets",
    "C58_mm_brackets",
    "C58_tt_brackets",
    "C58_transform_closed",
    "C58_transmute_closed",
    "C58_tm_closed",
    "C58_mt_closed",
    "C58_mm_closed",
    "C58_tt_closed"
   ],
   "note": "(c) for joint operations is about closures on both sides and in common, not flipped; (a), (b) and (d) cover the constants too, (a) and (b) also flipped closures."
  },
  {
   "property": "C59",
   "status": "proved",
   "theorems": [
    "C59_faithful_transform",
    "C59_faithful_transmute",
    "C59_transform",
    "C59_transmute",
    "C59_transform_constant",
    "C59_transmute_constant",
    "C59_transform_ends",
    "C59_transmute_ends",
    "C59_transform_order",
    "C59_transmute_order"
   ],
   "note": "Clone of the closures themselves and Drop are not events, nor is Clone of a reduction the client passed as a constant (no other reduction is cloned). ==, Hash and Into are not called by these operations."
  },
  {
   "property": "C60",
   "status": "proved",
   "theorems": [
    "C60_faithful_tm",
    "C60_faithful_mt",
    "C60_faithful_mm",
    "C60_tm",
    "C60_mt",
    "C60_mm",
    "C60_tm_steady",
    "C60_mt_steady",
    "C60_mm_steady",
    "C60_tm_ends",
    "C60_mt_ends",
    "C60_mm_ends"
   ],
   "note": "For closures; constants in their place are C66. transform_with_transformed is C61; the set and transfute wrappers are C62. Clone of closures and constants, and Drop, are not events. Nothing is said about the order of the result, nor that an operand that could come back does (C36 for functions)."
  },
  {
   "property": "C61",
   "status": "proved",
   "theorems": [
    "C61_faithful",
    "C61_sound",
    "C61_sound_steady",
    "C61_tt",
    "C61_tt_steady",
    "C61_tt_ends",
    "C61_list_leaf_refuted",
    "C61_lists_panic_refuted",
    "C61_lists_told_refuted",
    "C61_lists_diverge_refuted"
   ],
   "note": "transform_with_transformed with every call of the client's code answered by anything. C61_sound, C61_sound_steady: closures or constants, any two misused maps, every way to end. C61_tt, C61_tt_steady, C61_tt_ends: exact, for closures, collision lists on one side at most and calm answers. The C61_..._refuted theorems show that the conditions are needed. C61_faithful: with functions it is the model of the other claims."
  },
  {
   "property": "C62",
   "status": "proved",
   "theorems": [
    "C62_faithful_find",
    "C62_faithful_insert",
    "C62_faithful_remove",
    "C62_faithful_transform",
    "C62_faithful_transmute",
    "C62_faithful_tt",
    "C62_faithful_tm",
    "C62_faithful_mt",
    "C62_faithful_mm",
    "C62_faithful_tf",
    "C62_faithful_ft",
    "C62_find",
    "C62_insert",
    "C62_remove",
    "C62_find_calls",
    "C62_insert_calls",
    "C62_remove_calls",
    "C62_insert_unequal",
    "C62_remove_unequal",
    "C62_insert_panics",
    "C62_transform",
    "C62_transform_ends",
    "C62_transform_unequal",
    "C62_transform_constant",
    "C62_transmute",
    "C62_transmute_ends",
    "C62_transmute_unequal",
    "C62_transmute_constant",
    "C62_tm",
    "C62_tm_unequal",
    "C62_tm_ends",
    "C62_tm_constant",
    "C62_mt",
    "C62_mt_unequal",
    "C62_mt_ends",
    "C62_mt_constant",
    "C62_mm",
    "C62_mm_unequal",
    "C62_mm_ends",
    "C62_mm_constant",
    "C62_tt",
    "C62_tt_unequal",
    "C62_tt_ends",
    "C62_tt_sound",
    "C62_tt_find",
    "C62_tf",
    "C62_tf_unequal",
    "C62_tf_ends",
    "C62_ft",
    "C62_ft_unequal",
    "C62_ft_ends"
   ],
   "note": "The set operations and the transfute operations of maps, each the operation of the map with its calls made as the wrapper makes them; a clone of () is no call. Exact theorems (C62_tm, ...) for closures on both sides; C62_tm_constant, C62_mt_constant, C62_mm_constant for constants for two equal keys, C62_tt_sound for any constants of transform_with_transformed. Constants in any place in the other operations are C66. Nothing is said about the order of the result."
  },
  {
   "property": "C63",
   "status": "proved",
   "theorems": [
    "C63_entries",
    "C63_set_entries",
    "C63_end",
    "C63_tells",
    "C63_set_tells",
    "C63_words",
    "C63_empty",
    "C63_contents_not_enough"
   ],
   "note": "Plain {:?} only; the sink is a String. C63_contents_not_enough shows that equal contents need not print equally."
  },
  {
   "property": "C64",
   "status": "proved",
   "theorems": [
    "C64_eq",
    "C64_eq_impl",
    "C64_iter",
    "C64_at_index",
    "C64_bit_index",
    "C64_clone",
    "C64_iter_mut",
    "C64_default"
   ],
   "note": "Crate-private functions. iter_mut is what the array becomes when a function is put on every element."
  },
  {
   "property": "C65",
   "status": "proved",
   "theorems": [
    "C65_tm",
    "C65_mt",
    "C65_mm",
    "C65_tt",
    "C65_tf",
    "C65_ft",
    "C65_set_tm",
    "C65_set_mt",
    "C65_set_mm",
    "C65_set_tt",
    "C65_levels",
    "C65_steady"
   ],
   "note": "Calls of the closures and clones are counted in C60 and C62; how a single map is searched is C32 and C56. Keys are compared and hashed by no other bulk operation: transform and transmute have no such calls (AskT.v)."
  },
  {
   "property": "C66",
   "status": "proved",
   "theorems": [
    "C66_tm_run",
    "C66_mt_run",
    "C66_mm_run",
    "C66_tm",
    "C66_mt",
    "C66_mm",
    "C66_tm_ends",
    "C66_mt_ends",
    "C66_mm_ends",
    "C66_tm_steady",
    "C66_mt_steady",
    "C66_mm_steady",
    "C66_set_tm_run",
    "C66_set_mt_run",
    "C66_set_mm_run",
    "C66_tf_run",
    "C66_ft_run",
    "C66_set_tm",
    "C66_set_mt",
    "C66_set_mm",
    "C66_tf",
    "C66_ft",
    "C66_set_tm_ends",
    "C66_set_mt_ends",
    "C66_set_mm_ends",
    "C66_tf_ends",
    "C66_ft_ends",
    "C66_set_tm_steady",
    "C66_set_mt_steady",
    "C66_set_mm_steady",
    "C66_tf_steady",
    "C66_ft_steady"
   ],
   "note": "For maps and sets: transform_with_transmuted, transmute_with_transformed, transmute_with_transmuted; for maps also transform_with_transfuted and transfute_with_transformed. transform_with_transformed with constants is C61, C62 and C35, the operations of one map C59. How the reductions of constants are combined is not said here (with functions: C21, C22). Clone of a reduction passed as a constant is not an event."
  },
  {
   "property": "C67",
   "status": "proved",
   "theorems": [
    "C67_hashes_differ",
    "C67_insert",
    "C67_remove",
    "C67_find",
    "C67_transform_with_transmuted",
    "C67_transmute_with_transformed",
    "C67_transmute_with_transmuted",
    "C67_transform_with_transformed",
    "C67_separated",
    "C67_strings_refuted",
    "C67_set_insert",
    "C67_set_remove",
    "C67_set_transform_with_transmuted",
    "C67_set_transmute_with_transformed",
    "C67_set_transmute_with_transmuted",
    "C67_set_transform_with_transformed",
    "C67_transform_with_transfuted",
    "C67_transfute_with_transformed"
   ],
   "note": "The hasher is FNV-1a as published (external crate fnv) and the bytes of a key are those the standard library's Hash writes. C67_strings_refuted is the last sentence of the statement: longer keys do collide."
  },
  {
   "property": "C68",
   "status": "proved",
   "theorems": [
    "C68_example_map",
    "C68_example_set",
    "C68_example_xor_tt",
    "C68_example_xor_tm",
    "C68_example_xor_mt",
    "C68_example_xor_mm",
    "C68_readme",
    "C68_test_map_joint",
    "C68_test_set_joint",
    "C68_test_map_transform",
    "C68_test_map_transmute",
    "C68_test_set_transform",
    "C68_test_set_transmute"
   ],
   "note": "The tests of bit_indexed_array.rs and lnode.rs and default_test have no inputs; they are evaluated as Examples. Not modelled: the crate im (in the examples beside this one), clocks, printing. set_transform and set_transmute in debug builds: that they pass is proved when the sum of the absolute values is below 2^31."
  },
  {
   "property": "C69",
   "status": "proved",
   "theorems": [
    "C69_transform",
    "C69_transmute",
    "C69_transform_with_transmuted",
    "C69_transmute_with_transformed",
    "C69_transmute_with_transmuted",
    "C69_transform_with_transformed",
    "C69_transform_with_transfuted",
    "C69_transfute_with_transformed",
    "C69_loop_returns",
    "C69_set_transform",
    "C69_set_transmute",
    "C69_set_transform_with_transmuted",
    "C69_set_transmute_with_transformed",
    "C69_set_transmute_with_transmuted",
    "C69_set_transform_with_transformed"
   ],
   "note": "transform_with_transformed on the domain of C21 (outside it C21's refutations apply). In debug builds a loop may be stopped by the depth check of C11."
  },
  {
   "property": "C70",
   "status": "proved",
   "theorems": [
    "C70_set_expressions",
    "C70_set_identities",
    "C70_set_inclusions",
    "C70_set_default",
    "C70_merge_value",
    "C70_merge_brackets",
    "C70_merge_order",
    "C70_merge_default",
    "C70_transform_transform",
    "C70_transmute_transmute",
    "C70_merge_transform"
   ],
   "note": "The merges are calls of transform_with_transfuted with the function applied to both values; results of an expression are those of calls that return (C28 says when they do; with the keys of C67 they always do)."
  },
  {
   "property": "C71",
   "status": "proved",
   "theorems": [
    "C71_constant_left",
    "C71_constant_right",
    "C71_set_constant_left",
    "C71_set_constant_right",
    "C71_as_closures",
    "C71_self",
    "C71_left_entries",
    "C71_right_entries",
    "C71_history_refuted"
   ],
   "note": "C71_history_refuted belongs to the claim: it shows that the constants depend on the history of a map."
  },
  {
   "property": "C72",
   "status": "proved",
   "theorems": [
    "C72_shape",
    "C72_insert_order",
    "C72_reachable",
    "C72_rooted",
    "C72_place",
    "C72_same_place",
    "C72_constant_left",
    "C72_constant_right",
    "C72_remove_refuted"
   ],
   "note": "The calls are those of C01's reachable maps without remove (transform_with_transformed on the domain of C21). C72_remove_refuted belongs to the claim: with remove the shape also depends on the history."
  },
  {
   "property": "C73",
   "status": "proved",
   "theorems": [
    "C73_order",
    "C73_strict",
    "C73_groups",
    "C73_hashes",
    "C73_keys",
    "C73_visit",
    "C73_collisions_refuted",
    "C73_same_visit",
    "C73_same_contents",
    "C73_same_inserted",
    "C73_same_root_refuted"
   ],
   "note": "C73_collisions_refuted and C73_same_root_refuted belong to the claim: the order among colliding entries depends on the history, and so does the root of a map with at most one hash."
  },
  {
   "property": "C74",
   "status": "proved",
   "theorems": [
    "C74_insert",
    "C74_remove",
    "C74_insert_place",
    "C74_remove_exact",
    "C74_set_insert",
    "C74_set_remove",
    "C74_run",
    "C74_sorted",
    "C74_visit",
    "C74_same",
    "C74_undo",
    "C74_commute",
    "C74_commute_removes",
    "C74_commute_refuted"
   ],
   "note": "C74_commute_refuted belongs to the claim: colliding keys are visited in the order of their insertion, the latest first."
  },
  {
   "property": "C75",
   "status": "proved",
   "theorems": [
    "C75_fewest",
    "C75_shallow",
    "C75_entries",
    "C75_remove_refuted",
    "C75_transmute",
    "C75_never_more",
    "C75_transmute_with_transmuted",
    "C75_canonical",
    "C75_compact",
    "C75_transform",
    "C75_transform_with_transmuted",
    "C75_transmute_with_transformed",
    "C75_transform_with_transformed"
   ],
   "note": "C75_remove_refuted belongs to the claim: after remove a map may have more nodes than it needs. Nodes are counted in the trie; the sharing of nodes between maps is C55's."
  },
  {
   "property": "C76",
   "status": "proved",
   "theorems": [
    "C76_insert",
    "C76_remove",
    "C76_undo_refuted"
   ],
   "note": "C76_undo_refuted belongs to the claim: it is the last sentence. Nodes are counted in the trie; sharing between maps is C55's, what a call allocates C43's."
  }
 ]
}