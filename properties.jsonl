{"id": "C01", "title": "Inserted entries are found, all others are untouched", "statement": "After inserting (k,v) under a key that is not in the map, find(k) returns exactly (k,v), and for every other key k' the answer of find(k') is exactly what it was before the insertion.", "quantifier": "every map reachable through the API, every key, every value, every hash function, every hash/flag word width, every other key", "why_tests_cant": "The behaviour depends on how the hash of the new key overlaps every hash already present, at every depth; tests sample a handful of hash patterns.", "anchors": ["src/map.rs: HashTrieMap::insert, find", "src/hash_trie.rs: HashTrie::insert", "src/node/cnode.rs: CNode::insert, lift_to_cnode_and_insert", "src/node/snode.rs: insert", "src/node/lnode.rs: insert, lift_to_cnode_and_insert"]}
{"id": "C02", "title": "Insert without replace refuses an existing key and reports the stored pair", "statement": "insert(k,v,replace=false) on a map that already holds a key equal to k returns Err with exactly the stored key and value, and no new map is produced.", "quantifier": "every reachable map, every key equal to a stored key, every value, every hash function", "why_tests_cant": "Must hold wherever in the trie (branch, collision list head, middle or tail) the key happens to live.", "anchors": ["src/map.rs: HashTrieMap::insert", "src/node/cnode.rs: CNode::insert", "src/node/lnode.rs: insert", "src/node/snode.rs: insert"]}
{"id": "C03", "title": "Insert with replace swaps exactly one entry and returns the previous pair", "statement": "insert(k,v,replace=true) returns Ok; if an entry (k0,v0) with k0 equal to k was stored then the previous pair returned is (k0,v0), afterwards find(k) is the NEW key object and value (k,v), the size is unchanged and every other key is unaffected; if no such entry was stored the previous pair is None and the size grows by one.", "quantifier": "every reachable map, key, value, hash function, and every key equality that is coarser than identity", "why_tests_cant": "The replaced entry may sit at any depth or list position and the equality may identify distinguishable keys.", "anchors": ["src/map.rs: HashTrieMap::insert", "src/node/lnode.rs: insert, remove_from_lnode", "src/node/snode.rs: insert"]}
{"id": "C04", "title": "Remove deletes exactly one entry and reports it, or reports NotFound iff absent", "statement": "remove(k) returns Err(NotFound) if and only if find(k) finds nothing; otherwise it returns the stored pair, find(k) afterwards finds nothing, every other key is unaffected and the size drops by exactly one.", "quantifier": "every reachable map, every key, every hash function", "why_tests_cant": "Collapse of branches and collision lists happens at arbitrary depth; tests only remove from a few shapes.", "anchors": ["src/map.rs: HashTrieMap::remove", "src/node/cnode.rs: CNode::remove", "src/node/lnode.rs: remove, remove_from_lnode", "src/node/snode.rs: remove", "src/hash_trie.rs: HashTrie::remove"]}
{"id": "C05", "title": "size() is the exact number of entries", "statement": "size() equals the number of entries that visit reports, which equals the number of pairwise-unequal keys that find finds.", "quantifier": "every map reachable through any history of insert, remove, transform, transmute and joint operations within the domain of C21-C25", "why_tests_cant": "The size is a cached number updated incrementally by every operation; an off-by-one shows only on particular shapes.", "anchors": ["src/map.rs: HashTrieMap::size", "src/node/cnode.rs: CNode::size, insert, remove", "src/node/lnode.rs: LNode::new, size", "src/node/mnode.rs: MNode::size"]}
{"id": "C06", "title": "visit reports every entry exactly once and nothing else", "statement": "The calls made by visit are, up to order, exactly the entries of the map: every (k,v) that find would return is reported once, no two reported keys are equal.", "quantifier": "every reachable map and hash function", "why_tests_cant": "Exactly-once over every trie shape.", "anchors": ["src/map.rs: HashTrieMap::visit", "src/node/cnode.rs: CNode::visit", "src/node/lnode.rs: visit", "src/node/mnode.rs: visit"]}
{"id": "C07", "title": "Every history of insert/remove behaves like an abstract finite map", "statement": "Run any sequence of insert (with either replace flag) and remove calls from the empty map; every value returned along the way (found pair, previous pair, removed pair, NotFound) and every find/size observation at the end equals that of an ordinary association-list map run on the same sequence.", "quantifier": "every finite operation sequence of any length, every key/value type, every hash function including constant ones, every key equality compatible with the hash, every word width", "why_tests_cant": "Unbounded histories times unbounded hash functions.", "anchors": ["src/map.rs: HashTrieMap", "src/hash_trie.rs: HashTrie", "src/flag.rs: Flag", "src/bit_indexed_array.rs: BitIndexedArrayImpl"]}
{"id": "C08", "title": "Observations depend only on contents, not on history", "statement": "If two histories leave the same abstract contents, then find agrees on every key, size agrees, and visit reports the same entries up to order, whatever intermediate trie shapes the histories went through.", "quantifier": "all pairs of histories with equal contents, all hash functions", "why_tests_cant": "Tries for the same contents differ in shape (removal leaves uncollapsed branches, collision lists are ordered by history).", "anchors": ["src/node/cnode.rs: CNode::remove, CNode::insert", "src/node/lnode.rs: insert, remove"]}
{"id": "C09", "title": "Persistence: deriving new versions never changes any old version", "statement": "In any tree of versions where each version is derived from any earlier version (including joint operations of two earlier versions), find, size and visit of every earlier version give the same answers before and after all later derivations.", "quantifier": "every branching version history of any size", "why_tests_cant": "Nodes are shared between versions, so a bug would only show in versions derived along unlucky sharing patterns.", "anchors": ["src/hash_trie.rs: HashTrie (Clone, insert, remove)", "src/node/cnode.rs: CNode::insert, remove (Arc sharing)"]}
{"id": "C10", "title": "find, insert and remove never panic in a release build", "statement": "With overflow checks off (release profile), no call of find, insert or remove on a reachable map panics, and every one terminates, for hash words of any supported width.", "quantifier": "every reachable map, every key, every hash function and width", "why_tests_cant": "The code contains unwraps, unreachable branches and depth arithmetic whose safety depends on a global invariant of the trie and the hash width.", "anchors": ["src/node/cnode.rs: CNode::insert, CNode::remove, find", "src/flag.rs: Flag::new_at_depth, next", "src/node/lnode.rs: lift_to_cnode_and_insert"]}
{"id": "C11", "title": "find, insert and remove never panic in a debug build either", "statement": "With overflow checks on (debug profile), no call of find, insert or remove on a reachable map panics. (FALSE of the code: the depth guard in the flag computation is eight times too lenient, so insert/remove through a full-depth branch shifts the hash by at least its width. The exact condition is characterised.)", "quantifier": "every reachable map, every key, every hash function, every pair of word widths", "why_tests_cant": "Needs two hashes that agree on all but the last slice of bits; random tests never produce them.", "anchors": ["src/flag.rs: Flag::new_at_depth", "src/node/cnode.rs: CNode::insert, CNode::remove"]}
{"id": "C12", "title": "find is total in every build profile", "statement": "find never panics, neither with nor without overflow checks, on any reachable map and any key.", "quantifier": "every reachable map, key, hash function, width, build profile", "why_tests_cant": "Depends on the deepest branch that some history can build.", "anchors": ["src/map.rs: HashTrieMap::find", "src/node/cnode.rs: CNode::find", "src/flag.rs: Flag::next"]}
{"id": "C13", "title": "Complete hash collisions are handled exactly", "statement": "All of C01-C06 hold when arbitrarily many distinct keys share one full hash value, alone or mixed with other keys that share only a prefix of it.", "quantifier": "every hash function (in particular constant ones), every number of colliding keys", "why_tests_cant": "Real hashers almost never collide on 64 bits, so tests do not get here.", "anchors": ["src/node/lnode.rs: LNode, insert, remove_from_lnode, lift_to_cnode_and_insert", "src/node/snode.rs: insert"]}
{"id": "C14", "title": "Insert then remove, and remove then insert, are inverse on contents", "statement": "If k is absent, insert(k,v) followed by remove(k) gives back (k,v) and a map with the same find answers, size and visited entries (up to order) as the original; if (k,v) is stored, remove(k) followed by insert(k,v) restores the same contents.", "quantifier": "every reachable map, key and value", "why_tests_cant": "The two shapes differ; only the contents are restored, which must hold at every depth.", "anchors": ["src/map.rs: HashTrieMap::insert, remove"]}
{"id": "C15", "title": "transform keeps, rewrites and removes exactly what the operation says", "statement": "After transform with an operation op, the map holds for every old entry (k,v): the same entry if op said Unchanged, (k,v') if op said Transformed v', nothing if op said Removed; no other entries appear; keys keep their original objects; size is exact; the old map is unchanged.", "quantifier": "every reachable map, every operation, every hash function, both parallelism strategies", "why_tests_cant": "Collapse and re-use decisions depend on which subset of entries each subtree keeps: exponentially many combinations.", "anchors": ["src/map.rs: HashTrieMap::transform", "src/node/cnode.rs: transform, transform_impl", "src/node/lnode.rs: transform, transform_impl, transform_result", "src/node/snode.rs: transform", "src/hash_trie.rs: transform"]}
{"id": "C16", "title": "The reduction computed by transform covers every entry exactly once", "statement": "With a generic operation and a reduce operation that is associative with the default value as identity, the reduced value returned by transform is the fold, in visit order, of the per-entry reductions; with the free monoid this means the reduction contains the reduction of each entry exactly once, in visit order. (The calls themselves come in a slightly different order: C51.)", "quantifier": "every reachable map, every generic op, every monoid", "why_tests_cant": "Quantifies over all tree shapes and bracketings.", "anchors": ["src/map.rs: HashTrieMap::transform", "src/node/cnode.rs: transform, transform_impl", "src/node/lnode.rs: transform_result"]}
{"id": "C17", "title": "The parallelism strategy is unobservable", "statement": "transform and transform_with_transformed return the same map and the same reduced value under Sequential and under MiddleIndex, for any monoidal reduce operation; the resulting map is the same trie for any reduce operation at all.", "quantifier": "every reachable map (or pair), every op, every monoid, both strategies, every split", "why_tests_cant": "Splitting and re-joining happens at every branch of every depth.", "anchors": ["src/enums.rs: ParallelismStrategy", "src/node/cnode.rs: transform, transform_with_transformed_cnode"]}
{"id": "C18", "title": "A transform that changes nothing returns the identical map", "statement": "If op answers Unchanged on every entry, the map returned by transform compares equal (==, pointer identity) to the original; conversely, if the returned map compares equal to the original then its contents are the same.", "quantifier": "every reachable map, every op that is Unchanged on all its entries", "why_tests_cant": "Every branch must propagate the unchanged flag; one dropped flag silently loses sharing.", "anchors": ["src/hash_trie.rs: transform, PartialEq", "src/node/cnode.rs: transform", "src/node/mnode.rs: PartialEq"]}
{"id": "C19", "title": "Constant operations are only an optimisation", "statement": "Passing the constant operations MapTransform::Unchanged / MapTransform::Removed (and, for joint operations, the constant joint operations) gives a map with the same contents as passing the generic closure that always returns that constant.", "quantifier": "every reachable map (or pair), every reduction constant", "why_tests_cant": "The constants take shortcut code paths that skip whole subtrees.", "anchors": ["src/transformations.rs: MapTransform, MapJointTransform", "src/node/cnode.rs: transform, transform_with_transformed_cnode", "src/node/lnode.rs: transform"]}
{"id": "C20", "title": "transmute rebuilds exactly the transmuted entries", "statement": "If the operation maps every entry to an entry of the new types whose key hashes and compares like the old key, the result of transmute holds exactly the transmuted entries (in visit order), find on the new map works for every new key, size is exact, and the reduced value is the fold over all entries in visit order.", "quantifier": "every reachable map, every hash- and equality-preserving operation, every monoid", "why_tests_cant": "transmute is an unsafe API: shape is reused without re-hashing, so the contract must be checked for all shapes.", "anchors": ["src/map.rs: HashTrieMap::transmute", "src/node/cnode.rs: transmute", "src/node/lnode.rs: transmute, transmute_result", "src/node/snode.rs: transmute"]}
{"id": "C21", "title": "transform_with_transformed merges two maps key by key", "statement": "For each key in both maps both_op decides the result, for each key only in the left left_op decides, for each key only in the right right_op decides, exactly as if done key by key on two finite maps; no other key appears; size is exact. (FALSE in general of the code: see the refutations for constant side-picking operations on flipped paths and for collision lists; proved on the stated domains.)", "quantifier": "every pair of reachable maps, every both/left/right operation", "why_tests_cant": "Nine node-kind combinations times shortcut paths times collision lists.", "anchors": ["src/map.rs: HashTrieMap::transform_with_transformed", "src/node/cnode.rs: transform_with_transformed_cnode, _lnode, _snode", "src/node/lnode.rs: transform_with_transformed_lnode, _snode, joint_transform_with_joint_transformed_result, transform_with_joint_transformed_result", "src/node/snode.rs: transform_with_transformed_snode"]}
{"id": "C22", "title": "Joint reductions cover every key of either map exactly once", "statement": "With generic operations and a commutative monoid, the reduced value of a joint operation is the combination of the per-key reductions: one both_op result per common key, one left_op result per left-only key, one right_op result per right-only key.", "quantifier": "every pair of reachable maps on which the joint operation returns, every generic op triple, every commutative monoid", "why_tests_cant": "Exactly-once across all node-kind combinations.", "anchors": ["src/hash_trie.rs: transform_with_transformed, transform_with_transmuted, transmute_with_transformed, transmute_with_transmuted"]}
{"id": "C23", "title": "transform_with_transmuted merges key by key into the left type", "statement": "Whenever the call returns, for each key in both maps both_op decides the left entry's fate, left_op decides left-only keys, right_op transmutes or drops right-only keys; no other key appears; size is exact.", "quantifier": "every pair of reachable maps of possibly different types, all operations with hash- and equality-preserving transmutation", "why_tests_cant": "All node-kind combinations, collision lists, different types on each side.", "anchors": ["src/map.rs: HashTrieMap::transform_with_transmuted", "src/node/cnode.rs: transform_with_transmuted_cnode, _lnode, _snode", "src/node/lnode.rs: transform_with_transmuted_lnode, _snode", "src/node/snode.rs: transform_with_transmuted_snode"]}
{"id": "C24", "title": "transmute_with_transformed merges key by key into the right type", "statement": "Whenever the call returns, for each key in both maps both_op decides the right entry's fate, left_op transmutes or drops left-only keys, right_op decides right-only keys; no other key appears; size is exact.", "quantifier": "every pair of reachable maps of possibly different types, all operations with hash- and equality-preserving transmutation", "why_tests_cant": "All node-kind combinations, collision lists, different types on each side.", "anchors": ["src/map.rs: HashTrieMap::transmute_with_transformed", "src/node/cnode.rs: transmute_with_transformed_cnode, _lnode, _snode", "src/node/lnode.rs: transmute_with_transformed_snode", "src/node/snode.rs: transmute_with_transformed_snode"]}
{"id": "C25", "title": "transmute_with_transmuted merges key by key into a third type", "statement": "Whenever the call returns, the result holds exactly: the transmutation by both_op of each common key, by left_op of each left-only key, by right_op of each right-only key, dropping the Removed ones; size is exact.", "quantifier": "every pair of reachable maps, all operations with hash- and equality-preserving transmutation", "why_tests_cant": "All node-kind combinations, collision lists, three types.", "anchors": ["src/map.rs: HashTrieMap::transmute_with_transmuted", "src/node/cnode.rs: transmute_with_transmuted_cnode, _lnode, _snode", "src/node/lnode.rs: transmute_with_transmuted_lnode, _snode", "src/node/snode.rs: transmute_with_transmuted_snode"]}
{"id": "C26", "title": "Set algebra: union, intersection, difference and symmetric difference are exact", "statement": "Using the constant operations (UnchangedLR/Removed on common elements, Unchanged/Removed on one-sided elements) transform_with_transformed on two sets computes exactly the union, intersection, difference and symmetric difference, with exact size, whenever it returns.", "quantifier": "every pair of reachable sets, every hash function", "why_tests_cant": "Uses the shortcut paths at every node pair; must hold for every overlap pattern.", "anchors": ["src/set.rs: HashTrieSet::transform_with_transformed", "src/transformations.rs: SetJointTransform", "src/node/cnode.rs: transform_with_transformed_cnode"]}
{"id": "C27", "title": "A HashTrieSet is exactly a map with unit values", "statement": "Every HashTrieSet operation returns what the HashTrieMap operation with unit values returns after forgetting the values: insert/remove/find/size/visit behave like a mathematical set for every history.", "quantifier": "every history of set operations", "why_tests_cant": "The wrappers re-encode every operation and result; a wrong re-encoding shows only for the affected constructor.", "anchors": ["src/set.rs: HashTrieSet", "src/transformations.rs: SetTransform, SetTransmute, SetJointTransform"]}
{"id": "C28", "title": "When joint operations do not return", "statement": "transform_with_transformed, transform_with_transmuted, transmute_with_transformed and transmute_with_transmuted ought to return for every pair of maps. They do not: when both maps hold several keys with one hash and the collision list whose entries are collected has at least three, the collecting loop never advances. The claim that remains: this is the only way. A call that does not return is on two maps in that situation, and a call on two maps in that situation never returns a result; with operations that keep keys (and are tame, for transform_with_transformed) a call returns exactly when the maps are not in it. For transform_with_transmuted and transmute_with_transformed the list of the transmuted map is collected; for the other two it is the list of the map whose entries lie below fewer branches (of the right map if equally many).", "quantifier": "every pair of reachable maps, every operation", "why_tests_cant": "Requires three keys with the same full hash in one map and two in the other.", "anchors": ["src/node/lnode.rs: transform_with_transformed_lnode, transform_with_transmuted_lnode, transmute_with_transmuted_lnode (rights loop)"]}
{"id": "C29", "title": "Word bit operations satisfy their documented laws", "statement": "bit_insert/bit_remove are inverse and touch exactly one bit, bit_contains reads exactly that bit, bit_index counts exactly the lower set bits, bit_merge is disjoint union, nth_bit has exactly bit n set, and every error is reported exactly when the documentation says.", "quantifier": "every word value of every width and every bit argument", "why_tests_cant": "2^128 words times 128 bits.", "anchors": ["src/traits.rs: BitContains, BitIndex, BitInsert, BitMerge, BitRemove, CountOnes, LogB, MaskLogB, MaxOnes, NthBit"]}
{"id": "C30", "title": "Hashers narrower than 64 bits work", "statement": "For hash words u8, u16 and u32, hashing any key with a 64-bit standard hasher yields a hash word without panicking. (FALSE of the code: the narrowing conversion panics exactly when the 64-bit hash does not fit.)", "quantifier": "every 64-bit value a hasher can finish with, every word width", "why_tests_cant": "2^64 hash values.", "anchors": ["src/traits.rs: HasherBv, hasher_bv_impl"]}
{"id": "C31", "title": "Flipping a joint operation and its arguments is the identity", "statement": "For every joint transform, calling flip() of it with swapped arguments gives the flipped result of calling it directly. (FALSE of the code for the constants UnchangedL and UnchangedR; proved for all others.)", "quantifier": "every joint transform, every pair of entries", "why_tests_cant": "Quantifies over all closures.", "anchors": ["src/transformations.rs: MapJointTransform::flip, call; SetJointTransform::flip, call; MapTransform::flip_transform_transmute, flip_transmute_transform"]}
{"id": "C32", "title": "Lookup cost is bounded by the hash width, not the map size", "statement": "find visits at most ceil(hash bits / slice bits) branch nodes before reaching a leaf or a collision list, and a collision list only holds keys with the same full hash as each other.", "quantifier": "every reachable map of any size, every key", "why_tests_cant": "Depth bound over all histories.", "anchors": ["src/node/cnode.rs: CNode::find, lift_to_cnode_and_insert", "src/flag.rs: Flag::next"]}
{"id": "C33", "title": "Map equality is sound", "statement": "If m == n holds for two map values then find, size and visit agree on them; a clone compares equal to its source. (The comparison is identity of the root allocation, so the converse does not hold.)", "quantifier": "every pair of maps in any version history", "why_tests_cant": "Quantifies over all histories and sharing patterns.", "anchors": ["src/hash_trie.rs: PartialEq, Clone", "src/node/mnode.rs: PartialEq", "src/node/cnode.rs: PartialEq"]}
{"id": "C34", "title": "The four joint families agree where they overlap", "statement": "If the operations of two joint families denote the same per-key decisions, then transform_with_transformed, transform_with_transmuted, transmute_with_transformed and transmute_with_transmuted produce maps with the same find answers and size.", "quantifier": "every pair of reachable maps, every agreeing operation triple in the domain of C21", "why_tests_cant": "Compares separately written code paths on all shapes.", "anchors": ["src/hash_trie.rs: the four joint operations"]}
{"id": "C35", "title": "transfute wrappers keep the keys of the side they come from", "statement": "transform_with_transfuted and transfute_with_transformed put into the result, for entries that only exist on the transmuted side, a key equal to that side's key with the value chosen by the operation, and otherwise behave like the corresponding transmute operation.", "quantifier": "every pair of reachable maps, every operation", "why_tests_cant": "All shapes and operations.", "anchors": ["src/map.rs: transform_with_transfuted, transfute_with_transformed"]}
{"id": "C36", "title": "Joint operations share whole maps when nothing changes", "statement": "Merging with operations that leave every entry of one side unchanged and drop or match everything of the other returns a map that compares equal (==) to that side, in particular merging any map with an empty map under Unchanged operations returns that map itself.", "quantifier": "every reachable map", "why_tests_cant": "Flag propagation over every shape.", "anchors": ["src/hash_trie.rs: transform_with_transformed", "src/node/cnode.rs: transform_with_transformed_cnode"]}
{"id": "C37", "title": "Lookup, removal and insertion by a different key type", "statement": "find, remove and insert with a query of another type that hashes and compares like the key type behave exactly as with the corresponding key; insert stores the converted key.", "quantifier": "every reachable map, every query type with compatible hash and equality", "why_tests_cant": "Generic over all compatible types.", "anchors": ["src/map.rs: find, insert, remove (HashLike, PartialEq<L>, Into<K>)", "src/traits.rs: HashLike"]}
{"id": "C38", "title": "The references returned by insert denote the stored entry", "statement": "The key/value references returned by a successful insert are the pair that find returns for that key on the new map.", "quantifier": "every successful insert on every reachable map", "why_tests_cant": "The pair is returned by raw pointer from whichever node kind was created.", "anchors": ["src/hash_trie.rs: insert", "src/map.rs: insert", "src/results.rs: InsertResult"]}
{"id": "C39", "title": "Key objects: which of two equal keys is kept", "statement": "When the key equality identifies distinguishable keys: a refused insert keeps the old key object, a replacing insert stores the new key object, transform keeps the old key object, and joint operations keep the key object of one of the two sides (never a mixture or a new one).", "quantifier": "every reachable map, every equality coarser than identity", "why_tests_cant": "Needs types whose Eq is coarser than identity, and every code path.", "anchors": ["src/node/lnode.rs: insert", "src/node/snode.rs: insert, transform_with_transformed_snode_impl", "src/map.rs"]}
{"id": "C40", "title": "All operations compose", "statement": "The result of any operation, including transform, transmute and joint operations, is a map on which every later operation of any history behaves as specified (size, find, visit, insert, remove, transform...).", "quantifier": "every finite history mixing all operations", "why_tests_cant": "transform and joint operations produce tries of shapes that insert/remove alone never build (collapsed roots).", "anchors": ["src/hash_trie.rs: HashTrie", "src/node/cnode.rs: transform (collapse)"]}
{"id": "C41", "title": "Debug and release builds agree", "statement": "Whenever a debug build does not panic, debug and release builds return the same result; the out-of-range flag computed by release builds is never consulted.", "quantifier": "every reachable map, every operation", "why_tests_cant": "The difference only shows at maximum depth.", "anchors": ["src/flag.rs: Flag::new_at_depth", "src/node/cnode.rs: CNode::insert, remove"]}
{"id": "C42", "title": "Removing the last entry gives an empty map", "statement": "When remove, transform or a joint operation leaves no entries, the resulting map has size 0, finds nothing, visits nothing, and further insertions into it work as into a new map.", "quantifier": "every reachable map and operation that removes everything", "why_tests_cant": "Depends on the collapse logic at every depth.", "anchors": ["src/hash_trie.rs: remove, transform (Removed => default)", "src/node/cnode.rs: remove"]}
{"id": "C43", "title": "insert and remove copy only the path to the key", "statement": "A successful insert or remove allocates at most one branch per slice of the hash plus the collision list of the key (or one leaf); every other node of the new map is a node of the old map. A call that fails allocates nothing and returns no map.", "quantifier": "every map in any version history, every key", "why_tests_cant": "A copy that is too large gives correct answers; only the amount of sharing changes, at every depth and list length.", "anchors": ["src/node/cnode.rs: CNode::insert, remove, lift", "src/node/lnode.rs: LNode::insert, remove", "src/hash_trie.rs: insert, remove"]}
{"id": "C44", "title": "Returned pointers and references show the right entry for as long as the maps are kept", "statement": "The key and value pointers returned by insert show the inserted key and value inside the new map and are the ones find returns there; references to a replaced, refused, found or removed entry are the ones find returns in the old map. All of them keep showing the same entry, whatever is done later, while the maps are kept; a removed entry is not part of the new map.", "quantifier": "every map in any version history, every key, every later history", "why_tests_cant": "insert returns raw pointers into nodes that are shared and rebuilt by later operations; a pointer to a moved or rebuilt node shows only under particular histories.", "anchors": ["src/hash_trie.rs: insert, remove, find", "src/node/cnode.rs: CNode::insert", "src/node/lnode.rs: LNode::insert, remove", "src/node/snode.rs: SNode::insert"]}
{"id": "C45", "title": "Maps holding a key more than once still behave as stacks", "statement": "Joining maps can leave several entries under one key (C21). In every map that any sequence of API calls can build, size is the number of entries visited; find returns the first entry visited under the key and NotFound only if there is none; insert replaces or is refused by exactly that entry, or adds one; remove takes exactly that entry away and so uncovers the next one; the entries of all other keys stay as they are, in order; transform and transmute act on every entry, in visit order.", "quantifier": "every map built by any sequence of API calls with any operations (key contracts of transmutations kept), every key, every operation", "why_tests_cant": "Such maps arise only from joint operations on colliding hashes; what later calls do with them depends on list order and on which duplicate is met first.", "anchors": ["src/node/lnode.rs: LNode::find, insert, remove_from, transform, transmute", "src/node/cnode.rs: CNode::find, insert, remove", "src/map.rs"]}
{"id": "C46", "title": "Bulk operations share allocations only with the maps they derive from, and change none", "statement": "transform, transmute and the four joint operations never write to an existing allocation: every map held before the call answers afterwards as it did before. Every allocation of the returned map is new or belongs to a source map of the same type that the operation may keep entries of (transform: the map; transform_with_transformed: either map; transform_with_transmuted: the left; transmute_with_transformed: the right; transmute and transmute_with_transmuted: none). When nothing changes the very same map handle is returned. Run on shared allocations, every branching history of all operations returns exactly when, and answers as, the specification of the operations says.", "quantifier": "every history of calls on any number of maps, every operation, closure and strategy", "why_tests_cant": "Aliasing between versions is invisible to equality of contents; whether some shape of operands makes a bulk operation reuse or alter the wrong node depends on the tree shapes and on every combination of kept and changed slots.", "anchors": ["src/node/cnode.rs: CNode::transform, transmute, joint_*", "src/node/lnode.rs: LNode::transform, transmute, joint_*", "src/node/snode.rs: SNode::transform, transmute, joint_*", "src/node/mnode.rs", "src/map.rs"]}
{"id": "C47", "title": "Bulk operations allocate for what they change, not for what they keep", "statement": "transform allocates at most one cell per level of the tree and per entry of the same hash for every entry it changes or drops, and nothing at all when it changes nothing; told to drop everything it allocates one cell. transform_with_transformed allocates in proportion to the entries of either map plus the entries of the other that its one-sided operation changes, so merging a small map into a large one costs in proportion to the small one. transform_with_transmuted is bounded by the right map and the changed entries of the left, transmute_with_transformed by the left and the changed entries of the right, transmute and transmute_with_transmuted by all entries.", "quantifier": "every map of every history of calls, every operation, closure and strategy", "why_tests_cant": "A bound on allocations holds for a test input by accident of its shape; the worst case depends on depth, collisions and which slots of which branches are rebuilt, in every combination of the two trees.", "anchors": ["src/node/cnode.rs: CNode::transform, transmute, joint_*", "src/node/lnode.rs: LNode::transform, joint_*", "src/node/snode.rs: SNode::transform, joint_*, lift", "src/hash_trie.rs"]}
{"id": "C48", "title": "What an operation does not touch stays where it is", "statement": "After a successful insert, remove or transform, find on the new map answers with the very same reference as on the old map (the same address, not just an equal value) for every key whose hash is not the hash of an entry the operation removed, replaced, changed or dropped; an insert that replaces nothing moves no entry at all. transform keeps every part of the structure (branch, list, rest of a list, leaf) whose entries it all leaves unchanged. After a joint operation (transform with transform, with transmute, and flipped) the same holds for the entries of each map of the result's type: an entry stays at its address if the operation leaves it alone and neither a changed or dropped entry nor an entry of the other map has its hash. Within one hash the condition is needed: removing from a collision list moves the entries in front of the removed one.", "quantifier": "every map of every history of calls, every key, operation, closure and strategy", "why_tests_cant": "Address identity of every untouched entry depends on the shape of every branch and list on the way; a rebuild that copies one leaf too many is invisible to tests that compare contents.", "anchors": ["src/node/cnode.rs: CNode::insert, remove, transform, lift_to_cnode_and_insert", "src/node/lnode.rs: LNode::insert, remove_from_lnode, transform", "src/node/snode.rs: SNode::insert, transform", "src/bit_indexed_array.rs: updated, inserted, removed", "src/node/cnode.rs: transform_with_transformed, transform_with_transmuted, transmute_with_transformed"]}
{"id": "C49", "title": "Arrays are built without undefined behaviour", "statement": "The sparse arrays of the branches are built in uninitialised memory by a loop of raw writes. For every word and every list of values, construction either refuses (when the number of set bits differs from the number of values) or writes every slot and never panics half way; inserting, updating and removing one value of an existing array never panic, never read an unwritten slot, never need the inserted value twice, and leave every other bit reading what it read. Every array in a map a client can build is one for which this holds.", "quantifier": "every word width, word, list of values, array made by any sequence of the constructors, every map", "why_tests_cant": "A slot left uninitialised usually reads as zero or stale data in a test; the claim is about all sizes 0 to 128, all words and all positions, and about the absence of undefined behaviour, which has no observable failure.", "anchors": ["src/bit_indexed_array.rs:11-27", "src/bit_indexed_array.rs:98-125", "src/bit_indexed_array.rs:144-399"]}
{"id": "C50", "title": "Memory is freed exactly when nothing holds it", "statement": "Under any sequence of making, cloning, using and dropping maps, whatever freed memory is overwritten with: an allocation is alive exactly when some map the client still holds contains it, its reference count is the number of pointers to it, dropping a map never touches freed memory and frees exactly the allocations no other held map contains, after dropping everything nothing is left, every held map keeps reading and every call on held maps keeps answering as if nothing had been dropped, and a reference into a map stays valid and shows the same entry while any held map contains the entry. The raw pointers to the stored entry that insert returns point into the returned map; they do not keep it alive.", "quantifier": "every interleaving of new, clone, all eight operations and drop, every content of freed memory", "why_tests_cant": "Use after free and leaks show only for particular interleavings of sharing and dropping, and freed memory usually still holds the old bytes; tests sample a few drop orders and cannot observe reference counts.", "anchors": ["src/node/cnode.rs:9-11 (Arc of the array)", "src/node/lnode.rs:31-36", "src/node/snode.rs:6-9", "src/hash_trie.rs (Clone)", "src/map.rs:92-108 (references and raw pointers returned)"]}
{"id": "C51", "title": "transform, transmute and visit with closures that are not functions", "statement": "The closures may read and write anything, answer differently each time, or panic. However they answer: transform and transmute call the closure once for each entry of the map, in visit order except that entries with equal hashes come in reverse order, and not at all when given a constant; visit calls its closure once per entry in visit order. If no call panics the operation returns, and returns what the operation returns for a function that gives the recorded answers; if a call panics it is the last call and the panic leaves the operation. Every function is such a closure.", "quantifier": "every reachable map, every closure behaviour (any answers, any panic point), both strategies, every reduction", "why_tests_cant": "A test fixes one closure; the claim is over all ways a stateful closure may answer, including the point at which it panics.", "anchors": ["src/map.rs:110-142 (visit, transform, transmute)", "src/node/lnode.rs:67-73, 151-206", "src/node/cnode.rs:64-75, 119-283", "src/node/snode.rs:27-29, 74-94"]}
{"id": "C52", "title": "Joint operations with closures that are not functions", "statement": "However the three closures of a joint operation answer: it calls both_op once for each pair of entries with equal keys, the left entry first, left_op once for each entry whose key is only in the left map and right_op once for each entry whose key is only in the right map, and no closure where it is given a constant; it makes all these calls if it returns and each at most once, and no key is asked about twice, however it ends. If no call panics, the outcome is that of the same operation with functions giving the recorded answers. If a call panics it is the last one and the panic leaves the operation.", "quantifier": "every two reachable maps, all four joint operations, every combination of closures and constants, every closure behaviour", "why_tests_cant": "Quantifies over all pairs of maps and over all ways three stateful closures may answer each other's calls.", "anchors": ["src/map.rs:144-265", "src/node/cnode.rs:285-1613", "src/node/lnode.rs:208-970", "src/node/snode.rs:96-507", "src/transformations.rs"]}
{"id": "C53", "title": "How much memory maps take", "statement": "In every map a client holds, after any history of making, cloning, using and dropping maps in which converted keys hash and compare like the originals: each entry visit shows has an allocation of its own; a map of n entries occupies at least n allocations and at most 1 + n*(1 + (hash bits - 1)/(bits per level)); its size never exceeds the number of allocations alive, so a size cannot overflow a word that can count allocations. Without the contract on keys the last claim fails: a map of seven entries in a heap of five allocations.", "quantifier": "every history of calls (insert, remove, transform, transmute, the four joint operations, clone, drop) in any order on any of the maps held, all word widths", "why_tests_cant": "The bound is over all histories and all maps; overflow of a 64-bit size cannot be reached by running, and a test measures single maps.", "anchors": ["src/node/cnode.rs:20-75 (size, children)", "src/node/lnode.rs:20-73", "src/node/mnode.rs", "src/hash_trie.rs", "src/flag.rs:11-46"]}
{"id": "C54", "title": "Threads sharing maps do not notice each other", "statement": "Any number of threads may use the same maps at the same time. Whatever the interleaving of their allocations, every call of insert, remove, transform, transmute and the joint operations returns, panics or runs for ever exactly as it would if the calls were made one after the other, with the same result; from the moment a map is handed out, size, find and visit answer every thread the same at every time, however many calls are under way. Two executions of the same calls with different schedules agree in all answers, and single-threaded histories are a special case.", "quantifier": "every number of threads, every list of calls on any of the maps, every start time and every interleaving of allocations, all closures, strategies and word widths", "why_tests_cant": "The number of interleavings is unbounded and a stress test samples a few; that a reader sees the same at every moment in between is a statement about all of them.", "anchors": ["src/node/snode.rs:24 (Arc::new)", "src/node/lnode.rs:49-60", "src/node/cnode.rs:14-16", "src/map.rs:76-265", "src/traits.rs:235-242 (Send + Sync)"]}
{"id": "C55", "title": "Threads sharing maps: memory is freed once, when nobody can reach it", "statement": "Any number of threads create, clone, follow and drop the Arcs of maps at the same time, one atomic operation after the other in any interleaving, in the middle of calls as well as between them, and memory that has been freed is allocated again. At every moment the count of a cell is the number of Arcs to it; whatever can be reached from an Arc that some thread holds is allocated, not being destroyed, and unchanged since it was created, so that a map somebody holds all along answers every read as before. No drop, of an Arc in hand or inside a cell being destroyed, meets a freed cell. Destruction ends in every order, every allocation is freed at most once, and when no destruction is under way exactly what can be reached is allocated: nothing, if no Arc is held. The counts then depend only on the Arcs held, and are those that whole calls made one after the other arrive at (C50).", "quantifier": "every number of threads, every interleaving of atomic operations, every choice of addresses for new cells, every content of freed memory", "why_tests_cant": "A use after free or a double free needs one particular interleaving of decrements among unboundedly many; a stress test under a sanitizer sees the few that happen.", "anchors": ["src/node/snode.rs:24 (Arc::new)", "src/node/lnode.rs:54", "src/node/cnode.rs:14-16", "src/node/mnode.rs:5-11", "src/map.rs:69-80 (Clone, new)", "src/traits.rs:235-242 (Send + Sync)"]}
{"id": "C56", "title": "Keys and values whose own code does not behave", "statement": "If the code of the client's keys and values (==, Hash, Clone, Into) answers anything, differently each time, or panics, then find, insert and remove still terminate; the size of every map stays the number of entries visit shows; find hands back an entry of the map and only one for which == said yes; remove takes out exactly one such entry and keeps every other one, itself or cloned; insert puts in exactly what the conversions answer, asked for last, and takes out at most one entry, for which == said yes. In release builds find and remove panic only if the client's code does, insert also if == says yes and no to the same question or a stored key's hash differs from the one given. The number of calls is bounded whatever is answered: one hash of the given key, at most one of a stored key, comparisons and clones within the length of the longest collision list. If only == misbehaves and never equates keys of different hashes, a key that behaves still finds an entry of its class exactly if there is one. With keys that behave this is the model of all other claims.", "quantifier": "all maps built by any sequence of operations with lawful keys followed by any sequence of inserts, removes, transforms, transmutes and joint operations with arbitrary answers, all answers to all calls, all key, query and value types, all word widths", "why_tests_cant": "The answers form an unbounded tree: every call may be answered in any way, depending on everything before; a test fixes one such behaviour.", "anchors": ["src/node/snode.rs:31-72", "src/node/lnode.rs:75-149", "src/node/lnode.rs:1213-1236", "src/node/cnode.rs:24-115", "src/hash_trie.rs:29-59", "src/traits.rs:235-262", "src/flag.rs:11-46"]}
{"id": "C57", "title": "Sets and transfute with closures that are not functions", "statement": "However the closures passed to a set answer: transform and transmute ask once about each element, in visit order except that elements with equal hashes come in reverse order, and not at all when given a constant; visit asks in visit order; the joint operations of sets ask once about each pair of equal elements and once about each element of one set only, and no element is asked about twice. transform_with_transfuted and transfute_with_transformed ask as the operations they wrap. If no call panics the outcome is that of functions giving the recorded answers; transform returns, transmute returns if the new elements equal the ones asked about, and, unless three elements of the transmuted side share their hash with two of the other, so do transform_with_transmuted and transmute_with_transformed, and transfute without any condition on the answers. If a call panics it is the last one and the panic leaves the operation.", "quantifier": "every reachable set, pair of sets, and pair of maps, every combination of closures and constants, every closure behaviour", "why_tests_cant": "Quantifies over all sets and over all ways stateful closures may answer.", "anchors": ["src/set.rs:106-292", "src/map.rs:159-179", "src/map.rs:202-222", "src/transformations.rs:78-122", "src/transformations.rs:267-310", "src/transformations.rs:406-444"]}
{"id": "C58", "title": "Nothing assumed of reduce_op", "statement": "Whatever reduce_op and ReduceT::default() are, with no associativity, commutativity or identity: (a) the map that transform, transmute or a joint operation returns, its origin, and whether it returns at all do not depend on the reductions; (b) a homomorphism of reductions applied to the operations' reductions gives its image as the result; (c) given closures, the reduction returned is an expression in the default and reduce_op whose values are the closures' reductions, each exactly once: for transform and transmute in visit order, for the joint operations one for each pair of equal keys and one for each key of one side only; the expression is the same for every default and reduce_op; the same for sets and the transfute operations; (d) a property of the default and of the reductions of the calls (or of the constants) that reduce_op keeps holds of the reduction returned.", "quantifier": "every reachable map or pair of maps, every operation, every type of reductions, every default and reduce_op; for (c) joint, every call that returns, with the key contract where keys are transmuted", "why_tests_cant": "Quantifies over all maps, all closures and all binary operations, lawful or not.", "anchors": ["src/map.rs:115-265", "src/node/cnode.rs:119-235", "src/node/cnode.rs:237-300", "src/node/cnode.rs:371-840", "src/node/lnode.rs", "src/node/snode.rs", "src/transformations.rs"]}
{"id": "C59", "title": "transform and transmute when no code of the client is a function", "statement": "If the closure, reduce_op, ReduceT::default and Clone of keys and values may answer anything, differently each time, or panic, then transform and transmute return unless a call panics, and then that is the last call. The closure is called exactly once for each entry visit shows. The answers, read in visit order, are the new map in visit order: transmute gives exactly the entries answered; transform gives an unchanged entry itself or as clones of its key and value, a transformed one as a clone of its key with the new value, and nothing for a removed one. The reduction returned is made by calls of reduce_op of the closure's reductions, in visit order and each once, and of defaults; reduce_op is called exactly once less than there is to combine. No entry is cloned twice; a removed one never, of a transformed one only the key. The map itself comes back, with nothing cloned, just when every answer is unchanged. After a panic the entries asked about are distinct entries of the map. As long as hashes are in order the calls go as visit goes, but entries of equal hash in reverse. Given a constant they call nothing but, perhaps, Clone of that constant. With functions this is the model of all other claims.", "quantifier": "all maps built by any sequence of operations with lawful keys followed by any sequence of inserts, removes, transforms, transmutes and joint operations with arbitrary answers, all answers to all calls, all key, value and reduction types, both parallelism strategies, all word widths", "why_tests_cant": "The answers form an unbounded tree, and keys after a transmute may lie anywhere; a test fixes one behaviour of the client's code and one map.", "anchors": ["src/node/snode.rs:74-94", "src/node/lnode.rs:151-206", "src/node/lnode.rs:1164-1211", "src/node/cnode.rs:117-282", "src/node/mnode.rs:62-91", "src/hash_trie.rs:65-99", "src/map.rs:115-141"]}
{"id": "C60", "title": "The joint operations when no code of the client is a function", "statement": "If the closures, reduce_op, ReduceT::default, and ==, Hash and Clone of keys and values may answer anything, differently each time, or panic, then transform_with_transmuted, transmute_with_transformed and transmute_with_transmuted still tell every entry of both maps to a closure exactly once when they return: alone, or two of them together to the closure for both, and that only if one of the two keys was asked and said that it equals the other. The new map has exactly what the answers say: for an unchanged entry the entry itself or clones of its key and value, for a transformed one a clone of its key with the new value, for a transmuted one the key and value answered. The reduction is made by calls of reduce_op of the closures' reductions, each once, and of defaults, with exactly one call less than there is to combine. No entry is cloned twice, a removed one never, of a transformed one only the key. If the operation says that its operand came back it did. A panic has a reason: a call panicked, which was then the last one, or two keys were given different hashes; before it no entry was told twice. An operation that does not return has a collision list of three or more entries on a side that is transmuted. If hashes are in order and kept by clones and new keys, the result is a map whose hashes are in order, and only a call of the client's code that panics makes the operation panic, whatever == says. With functions this is the model of all other claims.", "quantifier": "all pairs of maps built by any sequence of operations with lawful keys followed by any sequence of inserts, removes, transforms, transmutes and joint operations with arbitrary answers, all answers to all calls, all key, value and reduction types, both parallelism strategies, all word widths", "why_tests_cant": "The answers form an unbounded tree and the maps may have keys anywhere; a test fixes one behaviour of the client's code and one pair of maps.", "anchors": ["src/node/snode.rs:237-506", "src/node/lnode.rs:425-657", "src/node/lnode.rs:732-970", "src/node/lnode.rs:1119-1162", "src/node/cnode.rs:371-1613", "src/node/mnode.rs:93-343", "src/hash_trie.rs:121-195", "src/map.rs:182-265"]}
{"id": "C61", "title": "transform_with_transformed when no code of the client is a function", "statement": "If the closures, reduce_op, ReduceT::default, and ==, Hash and Clone of keys and values may answer anything, differently each time, or panic, and whatever the two maps hold, then whenever transform_with_transformed returns, with closures or constants for its three operations, what it returns is a map with the right size, every key in it is a key of the two maps or comes from one by clones, and every value is one of theirs, comes from one by clones, or was answered by a closure. If the hashes are in order and kept by clones, the result's are, so find finds exactly what is there. It panics only if a call panicked, two hashes differed, or both maps have colliding entries, and fails to end only in the last case, with three of one hash on a side. With closures, if at most one of the maps has colliding entries and the answers for that side are calm (no entry of it was kept; or nothing was kept as of the other map, and of it nothing dropped or of the other nothing kept), every entry of both maps is told to a closure exactly once, two of them together only if one said it equals the other; the new map has exactly what the answers say; the reduction is made of the closures' reductions and defaults; an operand said to have come back did; a panic has a reason: a call panicked, which was then the last, or two hashes differed; and the call returns otherwise. Without these conditions that is false: an entry dropped or given up for the other map's may stay, the operation may panic though no call panicked and no hashes differ, a closure may be told an entry that is in neither map, and the operation may never end. With functions this is the model of all other claims.", "quantifier": "all pairs of maps built by any sequence of operations with lawful keys followed by any sequence of inserts, removes, transforms, transmutes and joint operations of all four kinds with arbitrary answers, all answers to all calls, closures and constants, all key, value and reduction types, both parallelism strategies, all word widths", "why_tests_cant": "The answers form an unbounded tree and the maps may have keys anywhere; a test fixes one behaviour of the client's code and one pair of maps.", "anchors": ["src/node/snode.rs:96-235", "src/node/lnode.rs:292-423", "src/node/lnode.rs:659-730", "src/node/lnode.rs:972-1117", "src/node/cnode.rs:371-583", "src/node/cnode.rs:842-966", "src/node/cnode.rs:1230-1353", "src/hash_trie.rs:101-119", "src/map.rs:144-156"]}
{"id": "C62", "title": "Sets, and transfute, when no code of the client is a function", "statement": "If the closures, reduce_op, ReduceT::default, and ==, Hash, Clone and Into of keys (and Clone of values for transfute) may answer anything, differently each time, or panic, then the set operations still do what C56 to C61 say of maps, in terms of keys alone. find gives a key of the set to which == said yes, and said no to every key asked before. insert and remove change the set by one key, and leave every other key or a clone of it; only keys are cloned, at most one less than the longest collision list, and == is called at most twice that length. transform and transmute tell each key to the closure exactly once and the new set has exactly the keys the answers say. The four joint operations tell every key of both sets to a closure exactly once (transform_with_transformed under the conditions of C61), two of them together only if one said that it equals the other. The reduction is made of the closures' reductions, each once, and defaults. No key is cloned twice and a dropped one never. A constant for two equal keys is as good as a closure that answers it: the other calls and the outcome are the same. The transfute operations of maps give each entry with a new value a clone of its key, made after the closure answered, and clone nothing else for it. Panics have the reasons given in C59 to C61. If hashes are in order and kept by clones and new keys, so are those of the result. With functions this is the model of all other claims.", "quantifier": "all sets and pairs of sets (maps, for transfute) built by any sequence of operations with lawful keys followed by any sequence of operations with arbitrary answers, all answers to all calls, all key, value and reduction types, both parallelism strategies, all word widths", "why_tests_cant": "The answers form an unbounded tree and the sets may have keys anywhere; a test fixes one behaviour of the client's code and one pair of sets.", "anchors": ["src/set.rs:86-104", "src/set.rs:112-292", "src/map.rs:159-179", "src/map.rs:202-222", "src/transformations.rs:78-122", "src/transformations.rs:267-296", "src/transformations.rs:406-431", "src/results.rs:165-210"]}
{"id": "C63", "title": "Debug prints every entry once, and tells maps apart", "statement": "format!(\"{:?}\", map) calls Debug of exactly the keys and values that visit shows, each once, in that order, key before value, with text of the library's own before, between and after that does not depend on what they print. The first of these calls that fails or panics ends the printing in the same way, with the text written until then. If the text of keys and values can be told from what follows them (as for integers), two maps or sets with the same text are the same tree, so nothing observable differs. The converse fails: a map from which an entry was removed may print differently from one that never had it.", "quantifier": "all trees, all key and value types, all Debug implementations that are functions; the plain form {:?}", "why_tests_cant": "The text is unbounded and depends on the shape of the tree; that no two of infinitely many maps share a text cannot be tested.", "anchors": ["src/map.rs:68-72", "src/set.rs:66-70", "src/hash_trie.rs:5-8", "src/node/mnode.rs:5-10", "src/node/lnode.rs:5-9", "src/node/lnode.rs:29-35", "src/node/snode.rs:5-9", "src/node/cnode.rs:8-11", "src/bit_indexed_array.rs:493-497"]}
{"id": "C64", "title": "Arrays as a whole: equality, copies, iteration, positions", "statement": "Two arrays are == exactly when their extra fields are equal and at every bit both hold nothing or hold equal elements; the == between arrays of one SIZE is the same function and never goes out of bounds. Iteration yields the elements by ascending bit. at_index(j) is the element whose bit has j set bits below it, and fails exactly beyond the end. inserted_bit_index, updated_bit_index and removed_bit_index are inserted, updated and removed at that bit, and fail beyond the width. A clone holds the clones at the same bits; the default holds nothing.", "quantifier": "all arrays the constructors can make, all widths, all element types and element equalities", "why_tests_cant": "Arrays range over all bit patterns of up to 128 bits and all element types; tests sample a few.", "anchors": ["src/bit_indexed_array.rs:89-96", "src/bit_indexed_array.rs:104-141", "src/bit_indexed_array.rs:401-485"]}
{"id": "C65", "title": "How often joint operations compare and hash keys", "statement": "A joint operation of two maps or sets, whatever the client's code answers and whether it returns, panics or hangs, calls == on keys at most |l| * longest(r) times and at most |r| * longest(l) times, and hashes keys at most (2 + max(levels l, levels r)) * max(1, min(|l|, |r|)) times. Here longest is the length of the longest collision list (1 if no hashes collide) and levels the most branches on a way down. While hashes keep their contracts there are at most ceil(hash bits / slice bits) levels and a collision list has entries of one hash only. The bounds are met by some maps.", "quantifier": "all maps and sets made by any calls with keys that need not behave, all closures and constants, all answers, all ends of the call, all strategies, all hash and slice widths", "why_tests_cant": "Tests look at results; a joint operation that compared every pair of keys would pass them all. The count depends on the shapes of two tries and the answers of the client's code.", "anchors": ["src/map.rs:144-265", "src/set.rs:154-292", "src/node/lnode.rs:208-970", "src/node/snode.rs:96-512", "src/node/cnode.rs:285-1662", "src/node/mnode.rs:93-392"]}
{"id": "C66", "title": "Constants instead of closures are only an optimisation, even for a client that misbehaves", "statement": "transform_with_transmuted, transmute_with_transformed and transmute_with_transmuted of maps and of sets, and the transfute operations of maps, with constants in the place of any of the three closures, with keys, values and remaining closures that answer anything or panic: there is a run with closures that answer the constants which hashes, compares and clones exactly the same, calls the remaining closures with the same entries in the same order, ends in the same way, and gives the same map or set and the same origin. So every entry of both maps is dealt with exactly once, by the constant of its kind or by one call of the closure of its kind; the closures that are left see just the entries of their kind; the new map has just what constants and answers say; a panic has a reason (a call panicked or two hashes differed); hanging takes a collision list of three; hashes in order keep the map in order.", "quantifier": "all pairs of maps made by any calls with keys that need not behave, all choices of constants and closures, all answers and panics of the client's code, all strategies, all hash and slice widths", "why_tests_cant": "Constants take separate shortcuts through whole subtrees. That a shortcut agrees with the long way on every pair of tries, also on tries and answers that break the contracts, cannot be sampled.", "anchors": ["src/map.rs:159-265", "src/set.rs:186-292", "src/hash_trie.rs:121-195", "src/node/cnode.rs:585-1662", "src/node/lnode.rs:385-970", "src/node/snode.rs:237-512", "src/transformations.rs"]}
{"id": "C67", "title": "Default maps and sets with keys of at most four bytes are free of every known defect", "statement": "In a DefaultHashTrieMap or DefaultHashTrieSet (64-bit FNV-1a hashes, 32-bit flags) whose keys write the same number of bytes, at most four, to the hasher (i32, u16, char, ...): different keys have hashes that differ in the lowest 40 bits. Therefore insert and remove never panic, in debug builds too (the depth guard that is off by a factor of eight, C11, is never reached); find visits at most eight branches and compares at most one key; the four joint operations always return (no collision list exists, C28) and give exactly the merge of the two maps, transform_with_transformed too with any operation that is not one of the constants UnchangedL and UnchangedR (C21). For other hashers: if different hashes always differ before the last slice, insert and remove never panic on any map a client can build. With String keys under the same hasher none of this holds: three short strings have the same 64-bit hash, and merging a set of them with itself never returns.", "quantifier": "all key types of one size up to four bytes, all maps and sets a client can build with them, all arguments, strategies, debug and release", "why_tests_cant": "There are 2^32 keys and 2^63 pairs of them; the depth and collision defects only show for pairs that agree in long prefixes of their hashes.", "anchors": ["src/lib.rs:24-28", "src/traits.rs:249-262", "src/flag.rs:11-46", "src/node/cnode.rs", "src/node/lnode.rs", "README.md:10-34"]}
{"id": "C68", "title": "The crate's own tests and examples pass on every input", "statement": "The programs of examples/map.rs, examples/set.rs and examples/set_xor.rs (all four of its joint operations) run to the end without a failed assertion or panic whatever numbers the random generator gives them and however many, in debug and release builds and under both parallelism strategies: what a trie yields when visited, put into a std HashMap or HashSet, is the HashMap or HashSet filled with the same numbers, and the exclusive or of two sets is the one computed with std sets. So do the tests map_joint_transformations and set_joint_transformations: the four joint operations give equal reductions, and results whose entries have equal sums. With 1..101 replaced by any list of numbers, map_transform and map_transmute pass exactly when no number occurs twice and (in debug builds) no square overflows; set_transform and set_transmute panic when a number occurs twice or the expected total is not the sum (modulo 2^32 in release builds), and otherwise pass in release builds; in debug builds they pass when moreover the sum of the absolute values is below 2^31, so that no intermediate sum overflows in whatever order the trie adds the parts. The README example works with every key type and every hasher and leaves an empty set.", "quantifier": "all lists of i32 of any length as inputs of each program, both strategies, debug and release; for the README all key types, hashers and keys", "why_tests_cant": "The tests and examples are run on fresh random numbers each time; a run says nothing about other numbers, in particular not about keys whose hashes nearly collide.", "anchors": ["src/map.rs:290-372", "src/set.rs:311-405", "examples/map.rs", "examples/set.rs", "examples/set_xor.rs", "README.md:10-34"]}
{"id": "C69", "title": "A bulk operation gives what a loop of single calls gives", "statement": "transform, transmute and the joint operations (all four, and the two transfute operations) of maps and sets give a map or set that no call of find, size or visit (up to order) can tell from the one that the obvious loop makes: visit the operands, find each key in the other one, ask the operation what is to become of the entry, and insert the answer into an initially empty map with insert(k, v, false).unwrap(). The unwraps never fail, the finds never fail, and the loop always ends (in debug builds it may be stopped by the depth check of C11). For transform, transform_with_transmuted and transform_with_transfuted the loop that changes the left operand in place with insert(k, v, true) and remove(k).unwrap() gives the same; for transform of a set the loop that removes the dropped elements. The loop over two maps is right on every pair of maps a client can build, also on those where the joint operations never return (C28).", "quantifier": "all maps and sets a client can build, all operations (constants and closures) that keep keys, all strategies, all key types, hashers, hash and slice widths, debug and release", "why_tests_cant": "Bulk operations walk both tries in parallel with a dozen cases per level and rebuild nodes directly; single calls descend from the root. That the two agree on every pair of tries cannot be sampled.", "anchors": ["src/map.rs:88-265", "src/set.rs:86-292", "src/hash_trie.rs:29-195", "src/node/cnode.rs", "src/node/lnode.rs", "src/node/snode.rs"]}
{"id": "C70", "title": "Laws of bulk operations", "statement": "Nested joint operations of sets compute set algebra: for any expression built from client-made sets with union, intersection, difference and symmetric difference (each one call of transform_with_transformed with constant answers), a value in the result is exactly one for which the Boolean formula holds; so any two expressions with the same formula have the same elements and the same size, and an expression whose formula implies another's is a subset and no larger. Merging any number of maps (calls of transform_with_transfuted) with an associative function of the values gives, for each key, the values of the maps that have it combined from left to right with the leftmost map's key object, however the merges are bracketed; with a function that is also commutative, neither the bracketing nor the order of the maps changes the size or any value. transform twice, transmute twice, and transform_with_transmuted followed by transform give what a single call with the composed operation gives. With default keys of at most four bytes every such expression has a value.", "quantifier": "all expressions, all numbers of maps and bracketings, all maps and sets a client can build, all operations (keeping keys), all strategies, key types, hashers, widths, debug and release", "why_tests_cant": "The laws quantify over all nestings of operations, where the tries handed on to the next operation are those that the previous one left behind; a wrong node shape or count shows only for some later operand.", "anchors": ["src/map.rs:146-265", "src/set.rs:139-292", "src/hash_trie.rs:29-195", "src/node/cnode.rs", "src/node/lnode.rs", "src/node/snode.rs"]}
{"id": "C71", "title": "What the constants UnchangedL and UnchangedR of transform_with_transformed do", "statement": "transform_with_transformed of maps and of sets with the constant UnchangedL (UnchangedR) in the place of the operation on common keys is transform_with_transformed with a closure that answers UnchangedL (UnchangedR) for the keys met with the operands in their places, and UnchangedR (UnchangedL) for the keys met with the operands exchanged: same map, reduction, origin, panic or endless loop, whatever the hashes. A key is met exchanged when its leaf or collision list lies on a higher level of the left trie than of the right one, except a list above a leaf, and when a leaf on the left lies no higher than a list on the right. The only exception is the pair (Unchanged, Removed), or (Removed, Unchanged), for two branches, where the operand itself is returned at once. In maps without colliding hashes the call returns, and a common key keeps the entry that the constant names exactly when it does not lie on a higher level of the left trie. Where no common key is exchanged, in particular for a map and itself, the constants are the closures of their names. What the constants do can not be told from the contents of the maps: two maps that find, size and visit do not distinguish, one of which held another entry for a while, give different results in the same call.", "quantifier": "all maps and sets a client can build, all one-sided operations (constants and closures), all reductions, strategies, key types, hashers, hash and slice widths, debug and release", "why_tests_cant": "Which entry is kept depends on the relative levels of a key in both tries, and so on the hashes of all other keys and on what was removed before; tests with equal values on both sides see nothing at all.", "anchors": ["src/transformations.rs:5-49", "src/results.rs:214-253", "src/node/snode.rs:96-111", "src/node/lnode.rs:208-222", "src/node/mnode.rs:93-109", "src/node/mnode.rs:177-193", "src/node/mnode.rs:261-277", "src/node/cnode.rs:371-583", "src/set.rs:154-183"]}
{"id": "C72", "title": "The shape of a trie built without remove is determined by its keys", "statement": "Take two maps or sets, possibly of different key and value types, that were built by any calls other than remove (insert, transform, transmute, and the four joint families, nested at will; a map that is transmuted, alone or in a joint call, may itself have been built with remove), and that hold equal keys. If both or neither have a branch at the root, which holds when both hold two keys with different hashes and when both were built by insert alone, then their tries have the same shape: the same branches with the same bits, and below them collision lists and leaves of the same hash and length in the same places. In particular the order of insertions and replacements does not matter, and dropping entries in a transform leaves the shape that the remaining entries would have had from the start. In such a map a key lies below a branch on a level if and only if (or it is the root level and the root is a branch) another key with a different hash agrees with it in the bits of the earlier levels, and it lies in a collision list if and only if another key has its hash. What the constants UnchangedL and UnchangedR do to a common key in maps without colliding hashes can not depend on how the map was built. None of this holds with remove: two maps that find, size and visit do not distinguish have different shapes.", "quantifier": "all maps and sets a client can build without remove, any number and order of calls, all closures, strategies, key types, hashers, hash and slice widths, debug and release", "why_tests_cant": "A test compares a few orders of insertion of a few keys; the claim is about every sequence of calls, including bulk transformations of tries of any depth, and every pair of them that ends with the same keys.", "anchors": ["src/node/cnode.rs:71-168", "src/node/cnode.rs:170-368", "src/node/cnode.rs:371-583", "src/node/cnode.rs:1575-1630", "src/node/lnode.rs:49-135", "src/node/mnode.rs:6-10", "src/node/snode.rs:20-94", "src/bit_indexed_array.rs:5-9", "src/map.rs"]}
{"id": "C73", "title": "visit follows the order of the hashes, slice by slice", "statement": "visit shows the entries of a map or set in the order of their keys' hashes, where two hashes are compared by their slices of log2 of the flag width bits, the lowest slice first; this is a strict total order on hashes, and entries with colliding hashes stand together. Hence two maps with equal keys, of whatever types and however built, remove included, show the same sequence of hashes; if no two keys collide they show the same sequence of keys, and if moreover find answers alike, visit does. Two maps built without remove (as in C72: after a transmute earlier removes do not count), both or neither with a branch at the root, on which visit answers alike are the same trie, so that every later call answers alike on them; without collisions alike answers of find are enough, and for maps built by insert alone the condition on the root holds. Both conditions are needed: colliding keys inserted in different orders are visited in different orders, and a map with one entry can have a leaf or a branch at its root.", "quantifier": "all reachable maps and sets, all key types, values, hashers, hash and slice widths, debug and release", "why_tests_cant": "A test sees the order of a few keys under one hasher; the claim is that the order never depends on the history but for collisions, for every pair of histories and every width.", "anchors": ["src/node/cnode.rs:64-72", "src/node/cnode.rs:159-166", "src/node/lnode.rs:67-73", "src/node/mnode.rs:54-60", "src/bit_indexed_array.rs", "src/flag.rs", "src/map.rs:110-112", "src/set.rs:107-109"]}
{"id": "C74", "title": "The order of visit is the history's order, sorted by hash", "statement": "A successful insert into a map or set, of a new key or in place of an old one, puts its entry after all entries of earlier hash (in the order of C73) and before all others, in particular before those that collide with it, and leaves the others in their order; a successful remove takes its entry away and leaves the others in their order. So after any sequence of insert, remove and find calls, visit shows exactly the list that keeps the latest insertion first, sorted stably by hash: there is only one such list. Two maps that agree on the order among colliding entries are visited alike, and if they were built by insert alone they are the same trie. Removing a key just inserted restores the output of visit; removals commute on it, and so do insertions of keys with different hashes, but not of colliding keys.", "quantifier": "all sequences of calls, all reachable maps for the single calls, all key and query types, values, hashers, hash and slice widths, debug and release", "why_tests_cant": "A test checks the order after a few insertions; the claim fixes the whole output of visit for every sequence of calls, including replacement of a key in the middle of a collision list below branches of any depth.", "anchors": ["src/node/cnode.rs:64-168", "src/node/lnode.rs:30-47", "src/node/lnode.rs:67-135", "src/node/snode.rs:27-94", "src/bit_indexed_array.rs", "src/map.rs:80-112"]}
{"id": "C75", "title": "Maps without removals have the fewest nodes and transmuting compacts", "statement": "Count as nodes of a map its branches and the nodes of its collision lists and leaves, each of which is one allocation. A map built without remove (as in C72) has no more nodes than any map a client can build that holds at least its keys, of whatever types, and none of its keys lies below more branches than there; the one exception is a branch at the root where the other map has a leaf or list instead, which makes a difference of one. Every map has at least as many nodes as entries. With remove this fails: of two maps that find and visit do not distinguish one can have twelve branches more than the other, with a key that many levels deeper. What transmute makes of any map, removes included, and what transmute_with_transmuted makes of any two, has the fewest nodes and every key at the least depth without exception; it is never larger or deeper than the map it was made of. So has what transform and the other joint calls make, when they make a map and do not return an operand, of operands built without remove on the sides they transform. Two maps made by transmute on which visit answers alike are the same trie, whatever they were made of. Hence transmuting every entry into itself compacts a map: it shows the same entries in the same order, in the fewest nodes, in a trie that depends only on these entries and their order.", "quantifier": "all maps a client can build, all transmuting closures that keep hash and equality of the keys, all key types, values, hashers, hash and slice widths, debug and release", "why_tests_cant": "A test counts the nodes of a few tries; that no sequence of calls makes a smaller trie with these keys is a statement about all of them.", "anchors": ["src/node/cnode.rs:8-11", "src/node/cnode.rs:71-168", "src/node/cnode.rs:224-281", "src/node/cnode.rs:1575-1630", "src/node/lnode.rs:6-9", "src/node/lnode.rs:30-35", "src/node/mnode.rs:5-10", "src/node/snode.rs:6-9", "src/map.rs"]}
{"id": "C76", "title": "A new key adds nodes, a removed key frees nodes", "statement": "Count the nodes of a map as in C75. An insert that finds no equal key makes a map with at least one node more; an insert that replaces an entry makes a map with exactly as many nodes. A remove that succeeds makes a map with at least one node less; the only exception is removing the entry of a map that consists of a leaf alone, which leaves the empty branch of a new map in its place. Removing a key directly after inserting it need not bring the number of nodes back: twelve branches can stay.", "quantifier": "all maps a client can build, all keys, lookup key types, values, with and without replacement, all hashers, hash and slice widths, debug and release", "why_tests_cant": "A test counts nodes before and after a few calls; the branches that an insert adds or a remove prunes depend on the hashes of all keys on the path.", "anchors": ["src/node/cnode.rs:71-168", "src/node/cnode.rs:1575-1630", "src/node/lnode.rs:89-149", "src/node/lnode.rs:1213-1236", "src/node/snode.rs:42-75", "src/map.rs"]}
