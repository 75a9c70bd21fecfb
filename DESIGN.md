# Formal model of bazald/hash-trie in Rocq

The code is a persistent hash array mapped trie (HAMT). It is modelled in Gallina and
verified in `rocq/theories`. Nothing in `/repo` is built or run; every model definition
cites the file and lines it transcribes.

## 1. What is modelled

Every definition of the model cites the file and lines it transcribes.

| Rust | Model file |
|---|---|
| `traits.rs` bit operations on words, `HasherBv` narrowing | `Words.v` |
| `flag.rs` hash slices | `Flag.v` |
| `bit_indexed_array.rs` sparse arrays | `Bia.v`; the construction loop over uninitialised slots `Raw.v` |
| `node/{s,l,c,m}node.rs` find / insert / remove / visit / size | `Node.v` |
| `transformations.rs`, `results.rs` (operations, `flip`, results) | `Trans.v` |
| `node/*.rs` transform / transmute | `Transform.v` |
| `node/*.rs` joint traversals; transform_with_transmuted, transmute_with_transformed, transmute_with_transmuted | `Joint.v` |
| `node/*.rs` transform_with_transformed | `JointT.v` |
| `hash_trie.rs`, `map.rs` public API | `Api.v`, end of `Transform.v`, `Joint.v`, `JointT.v` |
| `set.rs`, the `transfute` operations of `map.rs`/`set.rs` | `Api.v`, `Sets.v` |
| the shared allocations (`Arc` cells) behind find / visit / insert / remove / clone / `==` | `Heap.v` |
| the same for transform / transmute and the four joint operations | `HeapBulk.v`; all calls together `HeapRun.v` |
| reference counts, clone and drop of maps | `Rc.v`; one atomic operation at a time `Arcs.v` |
| transform / transmute / visit and the joint operations again, with closures as events | `Eff.v`, `EffT.v`, `EffJ.v`; sets and transfute `EffSet.v`; what a client passes `EffApi.v` |
| find / insert / remove again, with the code of keys and values as events | `Ask.v`; transform / transmute so, with `reduce_op` an event too, `AskT.v`; three of the joint operations `AskJ.v`, transform_with_transformed `AskTw.v`; sets and transfute `AskSet.v` |
| `lib.rs:24-28` default hasher: FNV-1a, the bytes small keys and strings write | `Fnv.v` |
| the tests of `map.rs` and `set.rs`, `examples/*.rs`, `README.md` as programs over the model; `i32` | `Progs.v`, `I32.v` |

Specifications, none of which uses the model's helper functions:

| File | Content |
|---|---|
| `Spec.v` | finite maps as association lists with at most one entry per key class |
| `SpecT.v` | what transform and transmute do to one entry, and the reduction |
| `SpecJ.v` | two association lists merged key by key |
| `SpecS.v` | sets as lists of keys |
| `SpecH.v` | what a handle into the heap stands for, what belongs to it, what is shared |
| `Reach.v` | the maps a client can build through the public API |
| `Hist.v`, `SetHist.v`, `Versions.v`, `HeapHist.v` | histories: linear, of sets, branching over all operations, branching on the heap |
| `Foot.v` | histories with drops whose client keeps the contracts on keys |
| `Conc.v` | executions of several threads that share maps |
| `Cost.v` | counting versions of the lookup path |
| `SpecAsk.v`, `SpecAskT.v`, `SpecAskJ.v`, `SpecAskTw.v`, `SpecAskSet.v`, `SpecCount.v`, `SpecConst.v`, `SpecConstSet.v`, `Misuse.v` | what was called and answered; maps whose keys have not behaved |
| `Stuck.v` | when a joint operation does not return |
| `Brackets.v` | expressions in the default and `reduce_op`; operations that differ only in their reductions |

Proofs live in separate files (`*P.v`, `Inv.v`, `Depth.v`, `Profile.v`, `WordLaws.v`); the
files `Prop*.v` contain only the property theorems, their examples and `Print Assumptions`.

### Modelling choices

* **Panics and divergence are values.** `outcome A := Ret a | Panic | Diverge`. Every
  `unwrap`, `panic!`, `assert!`, out-of-bounds index and unsigned underflow in the
  modelled code is an explicit `Panic`. The one loop that can fail to terminate carries
  fuel and yields `Diverge` when it runs out.
* **Build profiles.** The environment has a flag `checked`. A shift by at least the word
  width is `Panic` when `checked = true` (debug) and a shift by the amount modulo the width
  when `checked = false` (release), which is what rustc emits.
* **Words** are `N`. Hash words have 8, 16, 32 or 64 bits, flag words 8..128 bits (usize is
  one of these). Theorems quantify over both widths independently; this is slightly more
  general than the Rust trait bounds allow.
* **Keys.** The contract of `Eq`, `Hash`, `HashLike` and `PartialEq<L>` is modelled by
  classes: every key type `K` has a function `cls : K -> C` into one common type of key
  classes; two keys (of the same or of different types) compare equal iff their classes are
  equal, and the hash of a key is a function of its class. Keys that compare equal may be
  different objects. The hash
  function is otherwise arbitrary, so every pattern of full and partial collisions is
  covered. Keys that do not keep these contracts are in `Ask.v`: find, insert and remove
  with `==`, `Hash`, `Clone` and `Into` as events that may answer anything and may panic.
  Its answers are about the key given and the key stored, as the calls in the code are; C56
  proves that with lawful answers it is the model of the other files, and what is left
  otherwise. There a clone of a stored entry is a call; dropping keys and values is not.
  `AskT.v` does the same for transform and transmute (C59), where `reduce_op` and
  `ReduceT::default` are events too, and `AskJ.v` for transform_with_transmuted,
  transmute_with_transformed and transmute_with_transmuted (C60), where the keys of both maps
  are hashed and compared by events; `AskTw.v` for transform_with_transformed (C61), where the
  model also has the clone made before a closure is told the clone (lnode.rs:404). `AskSet.v`
  has the set and transfute operations (C62): the code of the map's operation with each call
  replaced by what the wrapper does for it (`handle`).
* **User closures**, two levels. In most files they are pure total functions. `Eff.v`,
  `EffT.v` and `EffJ.v` repeat transform, transmute, visit and the four joint operations with
  closures that are events: the operation asks and goes on with whatever it is answered, and a
  panic ends it (nothing in the source catches one). C51 and C52 say which calls are made
  and that, however the closures answer, the outcome is that of functions giving the same
  answers; so the theorems about functions carry over. `EffSet.v` wraps them as set.rs and the
  `transfute` operations do: the closure passed on calls the client's and converts its answer
  (C57). `reduce_op`, `Clone`, `Into`, `Eq` and `Hash` stay functions there.
* **`reduce_op`** is a function of two reductions, and `ReduceT::default()` a value. No law is
  assumed of them in the model; the theorems that fold over the entries ask for a monoid (and
  commutativity for joint operations), C58 says what is left without: some bracketing, which
  differs between the two parallelism strategies (`C58_transform_brackets_ex`). In `AskT.v`
  and `AskJ.v` they are events.
* **`visit`** is modelled as the list of calls it makes.
* **`async`/`join!`** run to completion in program order: the crate never spawns.
* **`Arc`, clone, drop, memory**, two levels. In most files an `Arc` is its value: a clone is
  the same value, and raw pointers and references are the entries they show. `Heap.v` has
  the allocations: a heap is a list of immutable cells, an `Arc` is an address, `Arc::new`
  appends a cell. The source has no interior mutability and no `get_mut`, `make_mut` or
  `try_unwrap` on an `Arc`, so no cell is ever written again; that the heap only grows is
  this reading, not a theorem. The heap theorems (C09, C33, C43, C44, C46, C47, C48)
  speak of maps the client keeps. `Rc.v` adds reference counts and drops: a client makes,
  clones, uses and drops maps, a cell whose count falls to zero is freed, and freed cells may
  change arbitrarily at every step; C50 proves that no map the client holds notices. The
  clones and drops inside a call are not listed one by one: `acquire` is what they add up to
  (one more `Arc` to the result, and the `Arc`s in the cells the call made). An address is
  one allocation: the allocator's reuse of addresses is modelled in `Arcs.v` only, so `==` on the roots
  (F6) is about maps held at the same time. The heap
  operations are proved to refine the tree operations, so all other theorems carry over.
  All operations run on the heap. `hstep` (`HeapHist.v`) is deliberately weaker for
  transform, transmute and the joint operations: it places the tree they compute anywhere in
  new or old cells, except that the old root is handed back when the code says Unchanged;
  C46 proves that running them (`HeapBulk.v`) is such a step, and where the cells come from.
  `HeapBulk.v` dereferences the operands once, before the traversal, into trees that carry
  their addresses (cells never change, so the moment of reading is immaterial), and threads
  the heap of the result type through the traversal in program order. Operands of other key
  or value types live in heaps of their own. `unsafe` functions are
  modelled by what they compute; their contract on keys is a hypothesis where it matters.
* **Threads.** Nothing writes to a cell after creating it, so what a call can notice of other
  threads is where its own cells end up. `alloc` (`Heap.v`) therefore asks an oracle, `Noise`,
  which cells the others have added by then; the default `quiet` adds none, and every theorem
  outside C54 is about `quiet`. The refinement proofs hold for every oracle. `threads`
  (`Conc.v`) is an execution: one final heap, every call starts on a beginning of it that
  contains its operands and ends on another. It admits more than real executions (two
  calls might claim the same cell), which only makes the theorems stronger. Allocation is
  taken to be atomic and its effects visible to whoever is handed the map afterwards: this is
  what `Arc`, the allocator and the means of passing a value between threads guarantee, and is
  assumed. `Arcs.v` has the reference counts of several threads: a machine whose steps are the
  atomic operations on `Arc`s (create, clone, decrement, drop the next field of a cell being
  destroyed, free), in any interleaving, with addresses allocated again after they are freed.
  It is about every program that uses `Arc`s in these ways, not about the particular clones
  of each function; C55_calls shows that the steps of `Rc.v` are made of such operations, and
  C55_orders that any other way to make them gives the same counts. Its memory is
  sequentially consistent (`Arc` uses relaxed increments and release/acquire decrements; that
  this suffices is assumed, as it is of `Arc` anywhere).
* **Building arrays.** `Bia.v` builds arrays from finished lists. `Raw.v` has the code:
  `mem::uninitialized` slots, the loop of `ptr::write`, the four sources with their `take` and
  `unwrap`. Leaving the loop by a panic, or using an array with an unwritten slot, is `RUndef`.
  C49 proves neither happens and that both files agree. Outside the model: by the letter of the
  Rust reference an uninitialised array of `Arc`s is undefined behaviour the moment it exists,
  even if every slot is overwritten before it is read (`MaybeUninit` is the sound way). That is
  true of every call of `new` with SIZE > 0 and no theorem here says otherwise.
* **Pointer equality** (`PartialEq` for maps) is equality of root addresses on the heap; on
  trees the API functions say whether the returned root is a clone of the left root, of the
  right root, or fresh.
* **Reachable maps.** `reachable` closes the empty map under all operations, at all key and
  value types, with one restriction: results of transform_with_transformed count only when
  the call is `tame` (`SpecJ.v`). `tame` restricts the operations only at hashes that
  several keys of one map share: there, the both-operation must not answer "keep the right
  entry", and the one-sided operations must not mix kept and dropped entries. Without
  colliding hashes every call is tame.
  Outside, the code builds malformed maps (C21_duplicate_refuted, C40_compose_refuted).
  `built` (`Built.v`) is `reachable` without that restriction: such maps can hold a key more
  than once. C39 and C45 are stated for `built` maps, C22 for every returning call on
  reachable maps.
* **usize overflow** of sizes is not modelled (sizes are unbounded `N`); underflow is. C53
  proves that every size is at most the number of living allocations while clients keep the
  contracts on keys. Intermediate sums are partial sums of the size of a map being built, or
  a size plus another minus a third (`cnode.rs:89,97`); an allocation takes more than two bytes,
  so none of them overflows a word that holds addresses. Clients that break the contracts can share one
  allocation several times inside a map (C53_contract_needed); for them it is left open.
* **`Debug`.** `Debug.v` has the text of `{:?}` for maps and sets, from the derived implementations
  and the one of arrays (C63). `{:#?}`, width and precision, and a sink that fails are not
  modelled. The client's `Debug` is a function to a text and an ending (ok, error, panic). It also has the
  array functions the tries do not use (C64). Macros are modelled by what they expand to.

## 2. Findings (properties false of the code)

* **F1** (C28) `lnode.rs:311,449,570`: the loop that collects the entries of a collision
  list executes `r = right;` instead of advancing, so it never ends when the list has three
  or more entries. Reached when both maps hold a collision list for the same full hash.
  `Stuck.v` has the exact condition.
* **F2** (C21, C31) `transformations.rs` `flip` of the joint operations does not exchange
  the constants `UnchangedL` and `UnchangedR`; on paths that swap the operands (left leaf or
  collision list against right branch, left leaf against right collision list) the wrong
  side is kept.
* **F3** (C11) `flag.rs:23`: the depth guard compares with `8 * max_ones()` where
  `max_ones()` is already in bits, so a flag can be computed with a shift of at least the
  hash width. In debug builds insert/remove through an occupied slot of a branch at the
  last level panics; in release builds the shift is masked and the flag is never used.
* **F4** (C30) `traits.rs:249-262`: narrowing a 64-bit hash to u8/u16/u32 panics unless it fits.
* **F5** (C16, C19) constant operations contribute their reduction once per subtree rather
  than once per entry; this is visible in the reduced value only.
* **F6** (C33) `==` is pointer identity; equal contents do not imply `==`.
* **F7** (C21) `lnode.rs:322-346` panics on a right-picking result for a leftover.
* **F8/F9** (C21) `lnode.rs:972-1117`: several arms of the joint collision-list combiners
  rebuild with the wrong value or the wrong tail; an entry can be duplicated or a removed
  one resurrected.

* **F12** (C67) `README.md:10` suggests sets of strings hashed with FNV-1a. Strings with equal hashes are
  easy to find (`"!0IC=VloaY"` hashes to zero, so zero bytes behind it change nothing); three of them
  in both sets make a joint operation hang (F1).

* **F10** (C36) when a merge drops an entry of one map at a slot the other map does not
  have, both unchanged flags are cleared, so a map that could be handed back is rebuilt
  (C36_dropped_refuted, C36_tm_dropped_refuted). Where one map is transmuted, a branch against
  a collision list rebuilds always (`cnode.rs:1014-1037`, `:1099-1132` clear the flag in the
  Unchanged case too), even against an empty map (C36_tm_empty_refuted,
  C36_tm_collision_refuted).
* **F11** (C56) `flag.rs:11-46`, `cnode.rs:1616-1630`: a key whose hash changes while it is in the map
  makes a later insert panic: in a release build the shifts wrap, the third insertion of such a
  key builds on a chain of 65 branches and runs out of flags (C56_ex_hash); a debug build panics
  at the end of the hash. The documentation asks for lawful keys; a panic is allowed.

## 3. How each property is proved

See `properties.jsonl` for the statements and `MANIFEST.json` for the theorem names.

* C01-C06, C13, C14, C37-C39, C42: refinement of `find/insert/remove/visit/size` to
  association lists under the trie invariant `wf` (hash prefix per subtree, exact bitmaps,
  exact sizes, collision lists of pairwise different keys with one hash). Induction over
  the trie.
* C07, C08, C40: induction over arbitrary histories.
* C09, C33, C43, C44, C46: a representation relation between handles and trees; the heap
  operations refine the tree operations; induction over heap histories.
* C47: every run is `within` a number of cells; per entry a price that falls with the depth, so
  that a branch is paid for by any changed entry below it. Induction over the left tree.
* C48: a handle stays `below` the new root; find reaches any list or leaf below the root that
  starts with the key. Induction over the loops of the branch with an invariant for one slot. For
  the joint operations the leaf functions are abstracted to a record of what they keep.
* C49: an invariant of the loop (what the source will still give), and of all arrays.
* C50: every count is the number of `Arc`s in held maps and living cells, kept by `acquire` and
  `release` for any work list; what is alive is reachable because cells point to older cells.
* C54: the refinement of C46 for any oracle, then induction over the calls: the operands stand for
  their trees in every beginning of the final heap that is long enough.
* C56: postconditions of programs (`gives`) by induction over the trie; `loose` is the invariant
  left when keys answer anything (sizes, arrays, depth), `placed` when only `==` does.
* C59: the same way; books of the calls so far (asked, reduced, cloned) go with every loop, and
  both kinds of map, `loose` and `placed`, are instances of one invariant.
* C60: the same with two maps: every entry is a resource that a call of a closure spends, so
  the books balance by permutations; a record `place` says where keys may be, with `loose` and
  `placed` maps as instances.
* C61: the same for the exact part. For the rest only what is returned and why it may
  not end well is followed (`yields`), through every function of the operation, with
  a record `ground` of where keys may be and what
  keys and values may be; its instances are `wide` (anywhere, coming from somewhere) and `close`
  (by the hash).
* C62: a run of the wrapper is a run of the map's operation with each call spread out into the
  calls the wrapper makes for it (`spread`); what C56 to C61 say of the one run is
  read off the other.
* C55: an invariant of single steps: counts balance with the `Arc`s in hands, in cells and in
  what is left of dying cells; some ranking of the cells decreases along `Arc`s.
* C53: a map whose keys all have the hash of their place has cells that are `apart`: no cell is
  reached along two ways, because the ways spell the hash and collision lists are chains. The
  upper bound charges the branches above an entry to it.
* C51, C52, C57: calls are resources: a program `spends` a multiset of calls, and the traversals spend
  the merge of the two maps; the order of the calls of one map by induction over the trie. A run
  is a run of functions because no key is asked about twice.
* C58: the operations are natural in the type of the reductions (`NaturalP.v`, function by
  function). Run them with expressions for reductions, and count the values of the expression
  with C16 and C22, addition being a commutative monoid; for closed properties run them with
  the reductions that have the property. Sets and transfute are wrappers (`BracketSP.v`).
* C10, C11, C12, C41: outcome never `Panic`, resp. exact characterisation.
* C15-C20: induction over the trie; loops are folds over the index range with the
  accumulator of the Rust code.
* C21-C26, C28, C34-C36: per-key specification of the joint operations, leaf/list/branch
  lemmas, induction over the left trie.
* C27: set wrappers are instances of the map model with `unit` values.
* C29, C30, C31: direct reasoning on the word and operation models.
* C32: a counting version of the lookup path.
* C45: a weaker trie invariant `ww` (`wf` without different keys in collision lists,
  parametrised by a predicate on entries), kept by every operation whatever the closures do;
  per key a stack of entries. C39 instantiates the predicate with "comes from one of the
  maps". C22 compares a call with the same call whose operations transform every value: the
  reduction is the same, and the second call is tame.
* C36: the result of a merge that changes nothing is a clone of one root.
* C63: every function of the model is shown to be a `weave` of the library's texts and the client's
  calls (`DebugP.v`); that the text tells the tree is a proof that it can be read from left to
  right, node by node (`DebugInjP.v`).
* C64: arrays are `made` (C49), so their values are the slots in ascending order (`BiaEqP.v`).
* C65: a logic of programs that ask at most so many questions of two kinds (`AskCountP.v`), applied
  to the leaves (`AskCountLP.v`), then by induction on the left tree with the right one any
  (`AskCountTP.v`, `AskCountAP.v`); a wrapper asks what the map asks (`AskCountSP.v`).
* C66: a simulation. `sim p p1` says that every run of `p` has a run of `p1` beside it (`SpecConst.v`
  says what is the same in both); where a constant takes a shortcut, `p1` may walk through the
  subtree with calls that are not kept (`idle`). One map in `SimLP.v`, leaves of two maps in
  `SimJP.v`, two trees in `SimTP.v`, the public operations in `SimAP.v`; `SimBP.v` reads C60 for the
  run with closures as a statement about the run with constants. A simulation of two operations of
  maps is one of the operations of sets (and transfute) made from them (`SimHP.v`, `SimSP.v`);
  `SimSBP.v` then reads C62.
* C67: in forty bits the multiplier of FNV-1a is 435, so each byte moves two hashes apart by little
  more than 435 times their distance; four bytes do not reach 2^40, so distances that are not zero stay
  so (`FnvP.v`, `FnvMapP.v`); `shallow` says that no branch lies below a
  limit and is kept by every operation when different hashes differ above it (`Depth.v`,
  `DepthJP.v`). Sets and transfute are wrappers (`FnvSetP.v`).
* C68: the loops keep a map reachable and its keys are those given (`ProgsP.v`); the rest is C67's
  merges, C22's reductions and sums that do not depend on the order (`ProgsP2.v`, `I32P.v`). Left out:
  what the programs do with the crate `im` and with the clock (`SystemTime` may go back, then their
  `duration_since(..).unwrap()` panics), what they print, the random numbers
  (any lists of any length here), futures (polled to completion, as everywhere). The standard
  library's `HashMap` and `HashSet` are association lists with their documented behaviour. `i32` is its
  32 bits; `+` and `i * i` panic on overflow in debug builds and wrap around in release builds. The
  sums come from C58's bracketings, since addition that may panic is not associative.
* C69: the loops are client programs (`Loops.v`); each is a sequence of insertions of new keys or of
  changes of present ones (`LoopsP.v`), so its contents are the list that C17 to C27 say the bulk
  operation has (`LoopsAP.v`).
* C70: by induction on expressions and bracketings from C17 to C27 (`LawsP.v`); the specification is
  Boolean algebra and a fold over the maps (`SpecLaws.v`).
* C71: transform_with_transformed depends on its operation only through its answers on pairs of entries
  with equal keys, direct or exchanged according to the places of the key (`Sides.v`); by induction on
  both tries without any invariant, then unique keys give one place per key (`SidesP.v`).
* C72: every call but remove keeps the trie below the root *lean* (`Lean.v`, `LeanP.v`): no branch is empty or
  has a single leaf or list as its only child; transmuting makes any trie lean. A lean trie is the trie of its hashes, by induction on the depth
  with the hash prefix of C04's invariant (`ShapeP.v`).
* C73: the order is stated on digits of hashes (`SpecOrder.v`); a subtrie has one prefix and its slots are in
  the order of the next digit, so visit is sorted, by induction (`OrderP.v`). Equality of tries is C72 and the
  order within collision lists.
* C74: the entries of one hash are all in one slot of a branch, so insert and remove are followed down one path
  (`GroupP.v`); a list sorted by hash is determined by its groups of equal hash.
* C75: a lean trie is compared slot by slot with any trie that holds its keys (`TidyP.v`); nodes are counted on
  shapes (`SpecMem.v`). What transmute makes is lean with its root, unless it is empty.
* C76: along the path of the key one child is replaced, added or taken out; the sums of nodes are compared by
  induction on the trie (`StepMemP.v`).

## 4. Trusted base

* Coq 8.16.1 kernel (checked again with `coqchk`), its standard library.
* Assumptions of each theorem: printed by `Print Assumptions` in the `Prop*.v` files; all
  are "Closed under the global context" unless noted here.
  Every theorem of this development is closed under the global context.
* `coqchk -o` lists, for the library files that are loaded, seven module parameters
  `Coq.ssr.ssrunder.Under_rel.*` of the standard library's `ssreflect` support (loaded
  through `Lia`/`Zify`); no theorem depends on them.
* The transcription of the Rust code into the model, by reading.
* For C67: that the external crate `fnv` computes FNV-1a with 64 bits, and that the standard library's
  `Hash` writes the bytes of a small integer once, and of a string followed by 0xff.

## 5. Testing the theorems

`seeded/LOG.jsonl` lists wrong programs: one edit of a model or specification definition each, and the claim
it should break. How to read a line:

* `killed`: some file no longer compiles. `first_failing_lemmas` names where it stopped. By itself this shows that
  a proof broke, not that the statement became false: an edit can also break a proof script only.
* `theorems_failed`: the property theorems that use one of these lemmas, found from the references in the `.glob`
  files. They are not rebuilt one by one: once a file fails, what depends on it is not compiled.
* `claims_violated_by_computation`: the claims whose statement a computed example contradicts on the edited model,
  which is the stronger evidence. `[]`: the examples ran and contradict none. `null`: they were not run on this
  edit, or there is no record that they were; so for all ids from BJ to BQ.
  In the last round (BR) only the files for C72, C75 and C76 were rebuilt; every edit is contradicted by an example.
* Survivors are listed with what was done about them. BQ06 and BQ36 are controls that change nothing.
