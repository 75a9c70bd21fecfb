{
 "C01": [
  "proved",
  ""
 ],
 "C02": [
  "proved",
  ""
 ],
 "C03": [
  "proved",
  ""
 ],
 "C04": [
  "proved",
  ""
 ],
 "C05": [
  "proved",
  ""
 ],
 "C06": [
  "proved",
  ""
 ],
 "C07": [
  "proved",
  "The alternative disjunct is the debug-build panic characterised under C11."
 ],
 "C08": [
  "proved",
  ""
 ],
 "C09": [
  "proved",
  "On a heap of immutable allocations: insert, remove, find, visit and clone run on it; where the bulk operations put their result is left open, except that they only add cells. No frees: the claim is about maps the client keeps."
 ],
 "C10": [
  "proved",
  ""
 ],
 "C11": [
  "partial",
  "The full claim is refuted with a witness; the exact panic condition and two positive fragments are proved."
 ],
 "C12": [
  "proved",
  ""
 ],
 "C13": [
  "proved",
  ""
 ],
 "C14": [
  "proved",
  ""
 ],
 "C15": [
  "proved",
  ""
 ],
 "C16": [
  "proved",
  ""
 ],
 "C17": [
  "proved",
  "Both strategies agree on every pair of reachable maps and every operation, also when the call panics or does not terminate."
 ],
 "C18": [
  "proved",
  "Identity of the root is modelled by the origin of the returned root (Self = clone of the receiver's Arc)."
 ],
 "C19": [
  "partial",
  "Proved for transform, transmute and the joint constants UnchangedLR and Removed; refuted for UnchangedL and UnchangedR, whose exact behaviour is C71."
 ],
 "C20": [
  "proved",
  ""
 ],
 "C21": [
  "partial",
  "False in general: refuted with witnesses (one-sided constants, keep-right closures on collision lists, duplicates, undropped entries, panic). Proved for tame operations, in particular all maps without colliding hashes and all operations except the one-sided constants. What the one-sided constants do instead is C71."
 ],
 "C22": [
  "proved",
  "All four families, every returning call with generic operations."
 ],
 "C23": [
  "proved",
  ""
 ],
 "C24": [
  "proved",
  ""
 ],
 "C25": [
  "proved",
  ""
 ],
 "C26": [
  "proved",
  ""
 ],
 "C27": [
  "proved",
  "transform_with_transformed on the domain of C21."
 ],
 "C28": [
  "proved",
  "Termination itself is refuted for every loop bound; the exact condition is proved for all four operations."
 ],
 "C29": [
  "proved",
  ""
 ],
 "C30": [
  "partial",
  "Refuted for narrow hashers; exact panic condition and the wide case are proved."
 ],
 "C31": [
  "partial",
  "Refuted for the constants UnchangedL and UnchangedR; proved for exactly all others."
 ],
 "C32": [
  "proved",
  ""
 ],
 "C33": [
  "proved",
  "The converse is refuted with a witness."
 ],
 "C34": [
  "proved",
  "Transform_with_transformed on the domain of C21."
 ],
 "C35": [
  "proved",
  ""
 ],
 "C36": [
  "partial",
  "transform_with_transformed hands back the left (right) map itself when the other map only has matching keys and no colliding hashes; against an empty map always. transform_with_transmuted and transmute_with_transformed hand back the transformed map when the transmuted one only has matching keys that collide with no other. The full claim is false: a dropped entry of the other map costs the sharing (C36_dropped_refuted, C36_tm_dropped_refuted), and where a map is transmuted so do colliding hashes (C36_tm_collision_refuted) and even an empty map (C36_tm_empty_refuted)."
 ],
 "C37": [
  "proved",
  ""
 ],
 "C38": [
  "proved",
  ""
 ],
 "C39": [
  "proved",
  "All families, every returning call (insert and transform by C02, C15)."
 ],
 "C40": [
  "partial",
  "Proved for branching histories of every operation with transform_with_transformed on the domain of C21; refuted outside it with a witness."
 ],
 "C41": [
  "proved",
  ""
 ],
 "C42": [
  "proved",
  ""
 ],
 "C43": [
  "proved",
  "Heap model; see C09."
 ],
 "C44": [
  "proved",
  "Heap model; see C09."
 ],
 "C45": [
  "proved",
  "Joint operations on such maps: only where their entries come from (C39)."
 ],
 "C46": [
  "proved",
  "Heap model of every operation. Closures are pure; cells are never freed. How much is rebuilt is C47."
 ],
 "C47": [
  "proved",
  "Upper bounds; an entry of one map that meets an entry of the other is charged even if the closure keeps it. Cells are counted, not bytes."
 ],
 "C48": [
  "proved",
  "For insert, remove, transform and the three map-valued joint operations; the joint find theorems assume tame / m_keeps, the kept theorems assume no contract. C48_one_hash_refuted and C48_tt_one_hash_refuted show the condition on the hash cannot be dropped."
 ],
 "C49": [
  "proved",
  "C49_any_array_refuted shows that the theorems need arrays made by the crate; C49_built covers those of every map."
 ],
 "C50": [
  "proved",
  "The clones and drops inside one call are taken together (their sum, C50_step, always exists). C50_dangles: the raw pointers insert returns keep nothing alive. Address reuse is not modelled: an address is one allocation."
 ],
 "C51": [
  "proved",
  "Closures are events with any answer or a panic; reduce_op, Clone, Into, Eq and Hash remain functions. C51_transmute_ends assumes, like C20, that the keys made are equal to the keys seen."
 ],
 "C52": [
  "proved",
  "Calls as a multiset (their order is the code's but not specified), results by reduction to functions; termination and results of the functions are C21-C28, C34-C37. C52_tm_ends and C52_mt_ends assume the exact condition of C28 and that the answers keep the keys."
 ],
 "C53": [
  "proved",
  "Overflow itself is not modelled (sizes are N); C53_sizes bounds sizes by the allocations alive. C53_contract_needed shows the contract on keys cannot be dropped."
 ],
 "C54": [
  "proved",
  "Allocation is taken to be atomic and visible once the map is handed over (Arc, allocator). Reference counts under threads are C55."
 ],
 "C55": [
  "proved",
  "Any client of Arc::new, clone, deref and drop, of which the crate's functions are examples; which Arcs each function clones on the way is not modelled. Sequentially consistent memory; the way to the Arc that is cloned is read in one step with the clone."
 ],
 "C56": [
  "proved",
  "find, insert and remove on maps that may also have been transformed, transmuted (C59) and joined (C60). The steady claims assume that hashes are functions of the class and that clones and conversions keep them."
 ],
 "C57": [
  "proved",
  "The closures of the wrappers are those of EffSet.v; flipped joint closures (JwClosure is not flipped) and reduce_op as events are left out, as in C52."
 ],
 "C58": [
  "proved",
  "(c) for joint operations is about closures on both sides and in common, not flipped; (a), (b) and (d) cover the constants too, (a) and (b) also flipped closures."
 ],
 "C59": [
  "proved",
  "Clone of the closures themselves and Drop are not events, nor is Clone of a reduction the client passed as a constant (no other reduction is cloned). ==, Hash and Into are not called by these operations."
 ],
 "C60": [
  "proved",
  "For closures; constants in their place are C66. transform_with_transformed is C61; the set and transfute wrappers are C62. Clone of closures and constants, and Drop, are not events. Nothing is said about the order of the result, nor that an operand that could come back does (C36 for functions)."
 ],
 "C61": [
  "proved",
  "transform_with_transformed with every call of the client's code answered by anything. C61_sound, C61_sound_steady: closures or constants, any two misused maps, every way to end. C61_tt, C61_tt_steady, C61_tt_ends: exact, for closures, collision lists on one side at most and calm answers. The C61_..._refuted theorems show that the conditions are needed. C61_faithful: with functions it is the model of the other claims."
 ],
 "C62": [
  "proved",
  "The set operations and the transfute operations of maps, each the operation of the map with its calls made as the wrapper makes them; a clone of () is no call. Exact theorems (C62_tm, ...) for closures on both sides; C62_tm_constant, C62_mt_constant, C62_mm_constant for constants for two equal keys, C62_tt_sound for any constants of transform_with_transformed. Constants in any place in the other operations are C66. Nothing is said about the order of the result."
 ],
 "C63": [
  "proved",
  "Plain {:?} only; the sink is a String. C63_contents_not_enough shows that equal contents need not print equally."
 ],
 "C64": [
  "proved",
  "Crate-private functions. iter_mut is what the array becomes when a function is put on every element."
 ],
 "C65": [
  "proved",
  "Calls of the closures and clones are counted in C60 and C62; how a single map is searched is C32 and C56. Keys are compared and hashed by no other bulk operation: transform and transmute have no such calls (AskT.v)."
 ],
 "C66": [
  "proved",
  "For maps and sets: transform_with_transmuted, transmute_with_transformed, transmute_with_transmuted; for maps also transform_with_transfuted and transfute_with_transformed. transform_with_transformed with constants is C61, C62 and C35, the operations of one map C59. How the reductions of constants are combined is not said here (with functions: C21, C22). Clone of a reduction passed as a constant is not an event."
 ],
 "C67": [
  "proved",
  "The hasher is FNV-1a as published (external crate fnv) and the bytes of a key are those the standard library's Hash writes. C67_strings_refuted is the last sentence of the statement: longer keys do collide."
 ],
 "C68": [
  "proved",
  "The tests of bit_indexed_array.rs and lnode.rs and default_test have no inputs; they are evaluated as Examples. Not modelled: the crate im (in the examples beside this one), clocks, printing. set_transform and set_transmute in debug builds: that they pass is proved when the sum of the absolute values is below 2^31."
 ],
 "C69": [
  "proved",
  "transform_with_transformed on the domain of C21 (outside it C21's refutations apply). In debug builds a loop may be stopped by the depth check of C11."
 ],
 "C70": [
  "proved",
  "The merges are calls of transform_with_transfuted with the function applied to both values; results of an expression are those of calls that return (C28 says when they do; with the keys of C67 they always do)."
 ],
 "C71": [
  "proved",
  "C71_history_refuted belongs to the claim: it shows that the constants depend on the history of a map."
 ],
 "C72": [
  "proved",
  "The calls are those of C01's reachable maps without remove (transform_with_transformed on the domain of C21). C72_remove_refuted belongs to the claim: with remove the shape also depends on the history."
 ],
 "C73": [
  "proved",
  "C73_collisions_refuted and C73_same_root_refuted belong to the claim: the order among colliding entries depends on the history, and so does the root of a map with at most one hash."
 ],
 "C74": [
  "proved",
  "C74_commute_refuted belongs to the claim: colliding keys are visited in the order of their insertion, the latest first."
 ],
 "C75": [
  "proved",
  "C75_remove_refuted belongs to the claim: after remove a map may have more nodes than it needs. Nodes are counted in the trie; the sharing of nodes between maps is C55's."
 ],
 "C76": [
  "proved",
  "C76_undo_refuted belongs to the claim: it is the last sentence. Nodes are counted in the trie; sharing between maps is C55's, what a call allocates C43's."
 ]
}