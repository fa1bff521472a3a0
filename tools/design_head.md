# A formal model of barsan-ds/tree-ds in Rocq (Coq 8.16.1)

Everything is in `rocq/theories`.  The theorems are in the files `Prop*.v`; the
properties they prove are listed in `properties.jsonl` (C01 …) and mapped to
theorems in `MANIFEST.json`.  A property that is false of the code is stated in
full in `properties.jsonl`; what is true of it is proved by theorems with the
suffix `_partial`, and `_refuted` theorems prove that the rest fails.

## 1. Layout

| files | content |
|---|---|
| `Base.v` | pointers, heaps, outcomes, 64-bit words, allocators: the conventions of the model |
| **Specifications** (no code, no heap) | |
| `Spec.v` | ordered trees (`rose`), binary trees (`bin`), traversal orders, size, arity, subtrees |
| `EditSpec.v` | replacing, adding, removing a subtree, on trees labelled with addresses and values |
| `PruneSpec.v`, `PathSpec.v`, `MatchSpec.v`, `OptSpec.v`, `StarSpec.v`, `StarResultSpec.v`, `PrintSpec.v`, `AddressSpec.v`, `FailSpec.v`, `NameSpec.v`, `LeafSpec.v` | pruned trees; paths; occurrences of patterns; optional and repeated pattern nodes; printed text; with addresses; the number of nodes a call creates; the names in a pattern; nodes on the way to a leaf that have a next sibling |
| **Models of the code** (each definition cites file and lines) | |
| `StructNode.v` | `node/struct_node.hpp` (literals `n(v)(...)`) |
| `BinaryNode.v`, `NaryNode.v` | `node/node.hpp`, `node/binary_node.hpp`, `node/nary_node.hpp`, link by link |
| `Nav.v` | `node/navigator/*` (without `generative_navigator`), `keep_calling` |
| `Policy.v` | `policy/*.hpp`, `tree_iterator.hpp`, `tree_iterator_filter.hpp` |
| `Tree.v` | `tree_base.hpp`, `tree.hpp`, `nary_tree.hpp`, `binary_tree.hpp`, `viewer/*.hpp`, `allocator_utility.hpp` (`deallocate`), `calculate_size`/`calculate_arity` |
| `Matcher.v` | `matcher/*` without `star` |
| `Star.v` | `matcher/*` with `star` (`multi_matcher.hpp`); `StarPlain.v` proves that it agrees with `Matcher.v` on patterns without `star` |
| `Filter.v` | `tree_iterator_filter` as an object: constructors, assignment, moves, `other_policy`, `other_node` |
| `RootIndex.v` | `node`: `get_root`, `get_breadth_first_node_index`, `is_root`, `has_children`, `is_unique_child` |
| `Allocs.v` | the allocator objects of the trees: `tree.hpp` (constructors, `operator=`, `swap`, `replace_node`), `tree_base.hpp` (`allocator`, `useless_allocator`, `get_allocator`), `allocator_utility.hpp` (`deallocate`, `deleter`); with the specification of C74, C75 |
| `Adopt.v` | smart pointers owning nodes (`allocate`, `unique_ptr_alloc`), trees made from and assigned such pointers, the move constructors of the nodes; with the specification of C77 and C78 |
| `AdoptAlloc.v` | the allocators in the deleters of smart pointers; with the specification of C79 |
| `IterFail.v` | `++` and `--` when the queue or stack of the policy cannot grow; with the specification of C80 |
| `QueueFail.v` | insert_over and insert_child_* when the queue of a breadth-first iterator gets no memory |
| `ResultFail.v` | assign_result and assign_mark when the creation of a node fails |
| `Threads.v` | threads calling `tree_base::empty`, `size`, `arity`, `operator==` and looping over the same trees, access by access to the `mutable` members; with the specification of C76 |
| `Print.v`, `PrintAt.v` | `print_node`, `print_tree` (`utility.hpp`), `operator<<`; with the addresses of the nodes |
| `Fail.v` | the node constructors and the calls of `tree.hpp` when creating a node fails |
| `ConvFail.v` | the conversions from binary to n-ary trees when creating a node fails |
| `StarFail.v` | assign_result and assign_mark with `star` when creating a node fails |
| `Tried.v`, `StarTry.v` | attempts that leave nothing behind; `eager`: no reluctant star |
| `Names.v` | `matcher/utility.hpp`, the static assertions of `matcher.hpp` and `assign_mark` with a name |
| `Gen.v` | `multiple_node_pointer.hpp`, `generative_navigator.hpp`, breadth-first over them |
| `GenPre.v` | `pre_order.hpp` `increment_impl` over a `generative_navigator` |
| **Vocabulary of the statements** | |
| `Rep.v` | "this heap holds this tree": the data-structure invariants of the node types |
| `User.v`, `PredUser.v`, `MatchUser.v` | the loops a user writes (`for (it = begin; it != end; ++it)`), patterns as written |
| `World.v`, `Kinds.v`, `TreeSpec.v` | several tree objects in one memory, nothing shared, nothing leaked |
| `History.v` | calls and sequences of calls |
| **Theorems** `Prop*.v` | statements, `Print Assumptions`, and examples meeting the hypotheses |
| all others | lemmas |

## 2. How the code is modelled

* **Memory.** A finite map from addresses to node records.  Every read or write
  through a pointer is `deref`/`update`, which yield `NullDeref` or `Dangling`:
  a conclusion `= Ok …` therefore includes the absence of null dereference, use
  after free and double free on that path.
* **Assertions** are modelled (`AssertFail`), so theorems hold for debug builds.
* **Sizes** (`std::size_t` members) are `N` with explicit wrap at 2^64.
* **Loops** take explicit fuel `F`; theorems hold for every `F` above the number
  of nodes (and below 2^64 where machine words matter), so they include
  termination.  Non-termination findings hold for every fuel.
* **Allocator.** An arbitrary function returning an unused address (`allocator`);
  theorems quantify over it.
* **Iterators** are data (policy, current node, navigator root, queue or stack);
  the heap is an argument of their operations, so an iterator that survives a
  modification of the tree is covered.
* `tree<Node,…>` is modelled once over a record of node operations and
  instantiated for both node types, as the template is.
* Several trees share one world; aliasing is equality of tree identities.
* A call that throws yields the state after unwinding (`Throw w`).
* Templates: shapes that are C++ types (literals, patterns) are data here.
  Overload selection, `const` and forwarding are resolved by hand; the comment of
  each definition says which overload it is.

## 3. Trusted base

* Coq 8.16.1's kernel (and its virtual machine, `vm_compute`, in examples and
  in `_refuted` theorems about concrete trees).
* No axioms: `Print Assumptions` answers *Closed under the global context* for
  every theorem; section 7 lists them.  (The seven constants `Coq.ssr.ssrunder.*`
  that a scan of the loaded libraries shows are fields of a module type in Coq's
  standard library, loaded with std++; no theorem uses them.)
* Libraries: the standard library and std++ (finite maps, lists).
* That the model is the code: the definitions of the model files against the
  lines they cite.  What is simplified is said there and in section 4.
* That the statements mean the properties: `Spec.v`, `EditSpec.v`, `PruneSpec.v`,
  `PathSpec.v`, `MatchSpec.v`, `OptSpec.v`, `StarSpec.v`, `StarResultSpec.v`, `PrintSpec.v`, `AddressSpec.v`, `FailSpec.v`, `NameSpec.v`, `LeafSpec.v`, `Rep.v`, `World.v`, `TreeSpec.v`, `User.v`,
  `PredUser.v`, `MatchUser.v`, `History.v`.

## 4. What is not modelled

* Value types whose move or comparison throws; failure of the allocations made when a breadth-first iterator is copied, and of those of the containers (unordered_map, deque) that patterns with star use.
* Stateful allocators are modelled for the calls of `History.v` and the copy to another policy (`Allocs.v`), not for
  views, patterns and the conversion from binary trees.  The constructors that allocate use the allocator member before
  it is constructed (undefined behaviour); it is taken to be the default-constructed one.
* Policies other than the library's; policies other than breadth-first
  and pre-order from the root over `generative_navigator`; the printing of values.
* `unordered`/`move` iterators and const conversions.  Concurrency, except threads that only read (`Threads.v`, with a
  sequentially consistent memory).
* Code that does not compile when used (`detach_subtree`; a matcher holding an `alternative_match`).  `insert_child_back` of a `const tree&`
  passes no allocator to the node constructor (tree.hpp 663), which selects the implicitly deleted copy constructor; it is modelled as
  `insert_child_front` would make the copy.
* The caches of `pattern` (never hit, see `Matcher.v`).

## 5. The properties, how they are modelled and proved

