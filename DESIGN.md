# A formal model of barsan-ds/tree-ds in Rocq (Coq 8.16.1)

Everything is in `rocq/theories`.  The theorems are in the files `Prop*.v`; the
properties they prove are listed in `properties.jsonl` (C01 …) and mapped to
theorems in `MANIFEST.json`.  A property that is false of the code is stated in
full in `properties.jsonl`; what is true of it is proved by theorems with the
suffix `_partial`, and `_refuted` theorems prove that the rest fails.

## 1. Layout

| files | content |
|---|---|
| `Base.v` | pointers, heaps, outcomes, 64-bit words, allocators: the conventions of the model |
| **Specifications** (no code, no heap) | |
| `Spec.v` | ordered trees (`rose`), binary trees (`bin`), traversal orders, size, arity, subtrees |
| `EditSpec.v` | replacing, adding, removing a subtree, on trees labelled with addresses and values |
| `PruneSpec.v`, `PathSpec.v`, `MatchSpec.v`, `OptSpec.v`, `StarSpec.v`, `StarResultSpec.v`, `PrintSpec.v`, `AddressSpec.v`, `FailSpec.v`, `NameSpec.v`, `LeafSpec.v` | pruned trees; paths; occurrences of patterns; optional and repeated pattern nodes; printed text; with addresses; the number of nodes a call creates; the names in a pattern; nodes on the way to a leaf that have a next sibling |
| **Models of the code** (each definition cites file and lines) | |
| `StructNode.v` | `node/struct_node.hpp` (literals `n(v)(...)`) |
| `BinaryNode.v`, `NaryNode.v` | `node/node.hpp`, `node/binary_node.hpp`, `node/nary_node.hpp`, link by link |
| `Nav.v` | `node/navigator/*` (without `generative_navigator`), `keep_calling` |
| `Policy.v` | `policy/*.hpp`, `tree_iterator.hpp`, `tree_iterator_filter.hpp` |
| `Tree.v` | `tree_base.hpp`, `tree.hpp`, `nary_tree.hpp`, `binary_tree.hpp`, `viewer/*.hpp`, `allocator_utility.hpp` (`deallocate`), `calculate_size`/`calculate_arity` |
| `Matcher.v` | `matcher/*` without `star` |
| `Star.v` | `matcher/*` with `star` (`multi_matcher.hpp`); `StarPlain.v` proves that it agrees with `Matcher.v` on patterns without `star` |
| `Filter.v` | `tree_iterator_filter` as an object: constructors, assignment, moves, `other_policy`, `other_node` |
| `RootIndex.v` | `node`: `get_root`, `get_breadth_first_node_index`, `is_root`, `has_children`, `is_unique_child` |
| `Allocs.v` | the allocator objects of the trees: `tree.hpp` (constructors, `operator=`, `swap`, `replace_node`), `tree_base.hpp` (`allocator`, `useless_allocator`, `get_allocator`), `allocator_utility.hpp` (`deallocate`, `deleter`); with the specification of C74, C75 |
| `Adopt.v` | smart pointers owning nodes (`allocate`, `unique_ptr_alloc`), trees made from and assigned such pointers, the move constructors of the nodes; with the specification of C77 and C78 |
| `AdoptAlloc.v` | the allocators in the deleters of smart pointers; with the specification of C79 |
| `IterFail.v` | `++` and `--` when the queue or stack of the policy cannot grow; with the specification of C80 |
| `QueueFail.v` | insert_over and insert_child_* when the queue of a breadth-first iterator gets no memory |
| `ResultFail.v` | assign_result and assign_mark when the creation of a node fails |
| `Threads.v` | threads calling `tree_base::empty`, `size`, `arity`, `operator==` and looping over the same trees, access by access to the `mutable` members; with the specification of C76 |
| `Print.v`, `PrintAt.v` | `print_node`, `print_tree` (`utility.hpp`), `operator<<`; with the addresses of the nodes |
| `Fail.v` | the node constructors and the calls of `tree.hpp` when creating a node fails |
| `ConvFail.v` | the conversions from binary to n-ary trees when creating a node fails |
| `StarFail.v` | assign_result and assign_mark with `star` when creating a node fails |
| `Tried.v`, `StarTry.v` | attempts that leave nothing behind; `eager`: no reluctant star |
| `Names.v` | `matcher/utility.hpp`, the static assertions of `matcher.hpp` and `assign_mark` with a name |
| `Gen.v` | `multiple_node_pointer.hpp`, `generative_navigator.hpp`, breadth-first over them |
| `GenPre.v` | `pre_order.hpp` `increment_impl` over a `generative_navigator` |
| **Vocabulary of the statements** | |
| `Rep.v` | "this heap holds this tree": the data-structure invariants of the node types |
| `User.v`, `PredUser.v`, `MatchUser.v` | the loops a user writes (`for (it = begin; it != end; ++it)`), patterns as written |
| `World.v`, `Kinds.v`, `TreeSpec.v` | several tree objects in one memory, nothing shared, nothing leaked |
| `History.v` | calls and sequences of calls |
| **Theorems** `Prop*.v` | statements, `Print Assumptions`, and examples meeting the hypotheses |
| all others | lemmas |

## 2. How the code is modelled

* **Memory.** A finite map from addresses to node records.  Every read or write
  through a pointer is `deref`/`update`, which yield `NullDeref` or `Dangling`:
  a conclusion `= Ok …` therefore includes the absence of null dereference, use
  after free and double free on that path.
* **Assertions** are modelled (`AssertFail`), so theorems hold for debug builds.
* **Sizes** (`std::size_t` members) are `N` with explicit wrap at 2^64.
* **Loops** take explicit fuel `F`; theorems hold for every `F` above the number
  of nodes (and below 2^64 where machine words matter), so they include
  termination.  Non-termination findings hold for every fuel.
* **Allocator.** An arbitrary function returning an unused address (`allocator`);
  theorems quantify over it.
* **Iterators** are data (policy, current node, navigator root, queue or stack);
  the heap is an argument of their operations, so an iterator that survives a
  modification of the tree is covered.
* `tree<Node,…>` is modelled once over a record of node operations and
  instantiated for both node types, as the template is.
* Several trees share one world; aliasing is equality of tree identities.
* A call that throws yields the state after unwinding (`Throw w`).
* Templates: shapes that are C++ types (literals, patterns) are data here.
  Overload selection, `const` and forwarding are resolved by hand; the comment of
  each definition says which overload it is.

## 3. Trusted base

* Coq 8.16.1's kernel (and its virtual machine, `vm_compute`, in examples and
  in `_refuted` theorems about concrete trees).
* No axioms: `Print Assumptions` answers *Closed under the global context* for
  every theorem; section 7 lists them.  (The seven constants `Coq.ssr.ssrunder.*`
  that a scan of the loaded libraries shows are fields of a module type in Coq's
  standard library, loaded with std++; no theorem uses them.)
* Libraries: the standard library and std++ (finite maps, lists).
* That the model is the code: the definitions of the model files against the
  lines they cite.  What is simplified is said there and in section 4.
* That the statements mean the properties: `Spec.v`, `EditSpec.v`, `PruneSpec.v`,
  `PathSpec.v`, `MatchSpec.v`, `OptSpec.v`, `StarSpec.v`, `StarResultSpec.v`, `PrintSpec.v`, `AddressSpec.v`, `FailSpec.v`, `NameSpec.v`, `LeafSpec.v`, `Rep.v`, `World.v`, `TreeSpec.v`, `User.v`,
  `PredUser.v`, `MatchUser.v`, `History.v`.

## 4. What is not modelled

* Value types whose move or comparison throws; failure of the allocations made when a breadth-first iterator is copied, and of those of the containers (unordered_map, deque) that patterns with star use.
* Stateful allocators are modelled for the calls of `History.v` and the copy to another policy (`Allocs.v`), not for
  views, patterns and the conversion from binary trees.  The constructors that allocate use the allocator member before
  it is constructed (undefined behaviour); it is taken to be the default-constructed one.
* Policies other than the library's; policies other than breadth-first
  and pre-order from the root over `generative_navigator`; the printing of values.
* `unordered`/`move` iterators and const conversions.  Concurrency, except threads that only read (`Threads.v`, with a
  sequentially consistent memory).
* Code that does not compile when used (`detach_subtree`; a matcher holding an `alternative_match`).  `insert_child_back` of a `const tree&`
  passes no allocator to the node constructor (tree.hpp 663), which selects the implicitly deleted copy constructor; it is modelled as
  `insert_child_front` would make the copy.
* The caches of `pattern` (never hit, see `Matcher.v`).

## 5. The properties, how they are modelled and proved

* **C01** Pre-order iteration is complete and exact (proved). Pre-order on `Policy.v`. zipper of the current position; `pre_increment` moves to the next position of `preorder`; induction over the positions. `C01_C04_orders_complete` says the order lists contain every node once, so that the statements do not depend on reading `preorder`.
* **C02** Post-order iteration is complete and exact (proved). Post-order. as C01.
* **C03** In-order iteration is complete and exact (binary) (proved). In-order on binary nodes. as C01, over positions of binary trees (a node with only a right child keeps its empty left slot).
* **C04** Breadth-first iteration is complete and exact (proved). Breadth-first, with its queue. invariant: the queue holds the heads of the sibling groups still to be visited; `++` re-establishes it.
* **C05** Leaves iteration enumerates the leaves (proved). Leaves, with its stack of ancestors. invariant: the stack holds the ancestors-or-self with a next sibling still to be visited.
* **C06** Siblings policy enumerates a sibling list; fixed policy does not move (proved). Siblings and fixed. zipper; `C06_siblings_range_*` gives the whole range begin..end forwards and backwards, `C06_siblings_alone_*` the case of a navigator without a root (a root node, a detached node).
* **C07** Reverse iteration is the exact reverse (proved). Backward loops from `end()` with `--`. the backward steps are the inverse of the forward ones (mirror image of the tree for pre/post).
* **C08** ++ and -- are mutually inverse at every position (proved). `++` and `--` as single steps, at every position, with equality of complete iterator states. step lemmas in both directions.
* **C09** A breadth-first iterator created at an arbitrary node behaves as one that walked there (proved). The constructor of a breadth-first iterator at a node (`manage_initial_status`). the reconstructed queue equals the one of C04's invariant; needs the row navigation of C13.
* **C10** Changing the policy continues in the new order (proved). `other_policy`. the iterator obtained equals the one reached by iterating with the new policy.
* **C11** begin equals end exactly for empty trees; incrementing end rewinds (proved). begin, end, `++end`, `--end`. computed from the step lemmas.
* **C12** Views are confined to their subtree (proved). Views: navigators rooted at an inner node. all iteration theorems are about a tree in place, whose root may have a parent and siblings; the root test of the navigator confines it.
* **C13** Row and leaf navigation primitives (proved). `get_other_branch`, `get_row_extremum`, `get_highest_leaf`, `get_deepest_extremum_child`. rows of the tree seen from a position (`RowFacts.v`), by induction on the context.
* **C14** Filtered iteration equals filtering the iteration (proved). `tree_iterator_filter`. over any policy whose forward order is known; induction on the list of remaining nodes.
* **C15** Leaves iteration is consistent under mixed ++ and -- (partial). Leaves iterators under mixed moves. False in general (`C15_round_trip_*_refuted`, in every tree, at every leaf but the first that is not alone in its `family`): `--` pushes the family of the leaf (the leaves, from it on, below the node where it meets the leaf before it) on the stack, so a later `++` visits these leaves twice. `C15_law_*` gives the exact position after every sequence of moves (LeafLaw.v; all moves except `--` at the first leaf); `C15_fine_*_partial`: right if each `--` starts at the end or at a leaf alone in its family; backward iteration alone is right whatever the stack.
* **C16** Binary tree construction from a structure literal (proved). Construction from a literal (binary). induction on the literal; the result is a consistent world with the new tree (`consistent`: disjoint, no leak).
* **C17** N-ary tree construction from a structure literal (proved). Construction from a literal (n-ary). as C16; precondition: no `n()` inside (an empty node inside an n-ary literal is not meaningful and asserts).
* **C18** Copy construction and copy assignment are deep (proved). Copy construction, copy assignment, assignment from a view. node copy by induction; release of the old nodes; `C18_copy_assign` includes i = j.
* **C19** Move construction and move assignment transfer ownership (proved). Move construction and assignment. pointer transfer; world invariant; self-move leaves an empty tree without leak.
* **C20** swap exchanges contents (proved). `swap`. world invariant.
* **C21** Tree equality is structural equality (proved). `==` of two trees of a kind. by induction on both trees; the test of size and arity first is sound when `size()`/`arity()` are right (`caches`, see C31).
* **C22** Equality of n-ary views (partial). `==` of views. binary: always right. n-ary: right if the left view's root has no next sibling; otherwise (`_refuted`, universal) equal subtrees lead to a null dereference.
* **C23** Comparing n-ary with binary trees (proved). `nary == binary`. induction; absent children skipped.
* **C24** Comparing trees with structure literals (proved). `tree == literal`. induction on the literal, both kinds; precondition as C21 and, for binary literals, at most two slots per node (`two_slots`).
* **C25** N-ary tree from a binary tree (proved). n-ary from binary. induction.
* **C26** size() and arity() are right on a freshly built tree (proved). `size()`, `arity()` on fresh trees. calculated by induction, cached values shown right.
* **C27** insert_over / emplace_over replaces exactly the pointed subtree (proved). `insert_over`/`emplace_over` with a value, literal, copied tree, moved tree or view. link surgery at a position (zipper), frame conditions, release of the old subtree; the iterator's update for each policy.
* **C28** insert_child_front / insert_child_back add exactly one subtree (proved). `insert_child_front/back`, `emplace_child_*`. as C27; `C28_room` says when a binary node has room; `C28_full_throws` the exception.
* **C29** erase(position) on binary trees removes exactly that subtree (proved). `erase` on binary trees; ranges. as C27; ranges by induction.
* **C30** erase(position) on n-ary trees removes exactly that subtree (partial). `erase` on n-ary trees. Proved for the root and for children that are neither first nor last. False for the others, in every tree: removing a first child is a null dereference (`C30_first_child_refuted`); removing a last child that has a previous sibling frees the right nodes and leaves every other node right, except that the parent, which still has children, no longer has a last child (`C30_last_child_nary_refuted`). `C30_last_child_refuted` is a history in which a child added afterwards is lost and leaked.
* **C31** size() and arity() stay right along every history (partial). The size and arity caches along histories. `_partial`: along histories of calls that do not disturb the caches (`careful`); `_refuted`: insert_child_front of a literal, replacing a leaf in a tree of unknown size (wraps to 2^64-1). PropSize.v says when they are wrong, for every tree of either kind: erasing an inner node and then a leaf below the root makes size() return 2^64-1; insert_child_* of a tree (copy, move, view) or of a literal at the front counts as one node; after erasing an inner node, an insertion makes size() return the number of inserted nodes only (and, for a value, arity() the number of children of the node it was added to).
* **C32** clear and destruction release exactly the owned nodes (proved). `clear`, destructor. release by induction, world invariant.
* **C33** Failing modifications leave the tree as it was and leak nothing (partial). Exceptions. insert_child and erase: state unchanged. insert_over at end(): what the call built leaks, for every tree and every argument except a moved tree (`C33_insert_over_leak_refuted`).
* **C34** Failing move-insertions leave the moved-from tree destructible (partial). Exceptions with a moved tree. insert_over at end() and moving a tree into itself: safe. insert_child: always (`C34_insert_child_always_refuted`, every tree and every non-empty moved tree) the moved-from tree keeps a pointer to released nodes, and its destructor uses them.
* **C35** No history of valid calls leaks, double-frees or shares nodes (partial). Histories of calls. induction over the history with the world invariant. `_partial`: the calls refuted in C30, C33, C34, C42 are excluded by `valid`.
* **C36** Node queries are mutually consistent (proved). Node queries. positions.
* **C37** Predicate navigators skip filtered nodes (partial). Predicate navigator primitives. forward: proved. Backward `_partial`: proved if the immediate neighbour passes or there is none (for `get_last_child`: one of the last two children passes, or there are fewer than two); otherwise an endless loop (`_refuted`, for every fuel).
* **C38** Structure literals know their size, arity, levels and indexes (proved). Literals: size, arity, levels, indexes. induction on the literal, list of its nodes.
* **C39** Iterator equality means same element of the same view (proved). Iterator equality. for iterators over (views of) trees in a consistent world; end iterators of two empty trees are equal.
* **C40** Pattern of plain nodes: search finds an embedding and reports it faithfully (proved). Patterns of `one` and `cpt`: `search`, `assign_result`, `assign_mark`. `search_node` by induction on the pattern with the iterator's remaining siblings as a list; leftmost choice suffices; result by induction on the matched tree. Derived from C44.
* **C41** The iterator returned by insert_over continues the iteration (partial). The iterator returned by insert_over. `_partial`: nodes other than the root, policies pre-order, post-order, in-order and breadth-first; siblings (every child of every node); leaves, if the replaced leaf is a last child: then the loop visits the root of what was inserted (not its leaves, if it has children) and the leaves after it. Missing because false, each proved for every tree and every argument: at the root of a non-empty tree the returned iterator's navigator keeps the released root; pre-order: it never ends (after n increments it is at node n modulo the size); post-order, in-order, breadth-first: it visits the rest, then denotes no element but differs from end(), so the loop dereferences null; in an empty tree it denotes no element. With the policy leaves, a leaf that has a next sibling: `++` reads the released node.
* **C42** Copying a view copies only that subtree (partial). Copying views. binary: right. n-ary: right if the viewed node is the root or a last child; otherwise the following siblings are copied and leaked (`_refuted`, universal).
* **C43** Iteration with a predicate navigator visits exactly the pruned tree (partial). Iteration with a predicate navigator. post-order, breadth-first and leaves, and in-order for binary trees: the pruned tree. Pre-order `_partial`: right if the last child of every node passes; else it may end early (`_refuted`). C43_preorder_exact_* gives what pre-order visits for every tree and every predicate (EarlySpec.v `met`), and C43_preorder_prefix_* that it is always the beginning of the pre-order of the cut tree.
* **C44** Patterns with optional levels (proved). Patterns with `opt` (with children). as C40, with the specification `OptSpec.v`.
* **C45** Optional pattern nodes without children (partial). Patterns with childless `opt`. `_partial`: the search ends and touches only nodes of the tree. `_refuted`: value ignored, stale nodes reported, false positives.
* **C46** A multiple pointer walks several trees in step (proved). `multiple_node_pointer` in `Gen.v`; paths in `PathSpec.v`. by induction over paths every step of one component is `node_after`; the same shape gives the same path.
* **C47** Traversing with a generative navigator builds the copy (partial). `generative_navigator` and breadth-first over it in `Gen.v`, n-ary and binary. Invariant over the queue: what is generated, completed by what is pending, is the pruned tree (`GenInv.v`), refined to the heap (`GenRun.v`), for any stateful predicate that may also put trees in. `C47_pairing_refuted` (PropGenStep.v), for every node with two children that pass: get_last_child followed by get_first_child pairs the first child with the node generated for the last.
* **C48** Searching with star reports real matches, and finds those of single-child stars (proved). `Star.v` models multi_matcher.hpp with its callbacks; `StarSpec.v` says what a match is. `StarWalk.v`: what the iterators of a star enumerate under any `subtree_cut`; `StarFacts.v`: induction over the pattern, with the invariant that leftover cuts do no harm.
* **C49** Searching with star misses no match (partial). `_refuted`: `star()(a, b)` misses a match in r(a(a, b)) because backtracking jumps over it; `subtree_cut` is never reset, so a later search of a changed tree misses a match. What is true (single-child and disjoint stars, unchanged tree) is C48.
* **C50** assign_result and assign_mark after a star search give the match (proved). `StarResultSpec.v` says what is reported for a match. `StarTarget.v`: `check_target` as the predicate of a generation; `StarResult.v`: induction over the pattern, generic in the node type; `StarKinds.v`: n-ary and binary; `StarMarks.v`: captures; `StarUnique.v`: one result per match.
* **C51** A reluctant star with several children reports nodes of the tree (partial). `_refuted`: a reluctant star with two children below the same node reports that node twice (the last cloned node of a path is not put into `cloned_nodes`); a child that took nothing (`opt`) makes it read a null pointer. What is true (one child) is C50.
* **C52** A star without children matches every tree and reports the root, the tree or nothing (proved). `StarAlone.v`: induction over the number of steps of `keep_assigning_children`, generic in the node type; `StarAloneUser.v`: the search, and both node types.
* **C53** The result of a star without children is computed in finite time and contains accepted nodes only (partial). `_refuted`, for every tree: with any node below the root that the test rejects the call never ends (every number of steps is used up); with a test that rejects everything the root is matched and reported all the same. What is true is C52.
* **C54** Printing a tree writes the literal that builds it, cut to the limit (proved). `Print.v` models `print_node` with the limit shared by all the recursive calls; the text of a value is a parameter (`show`), addresses are not printed (`address_digits` = 0, the default). `PrintSpec.v` gives the text (`item_text`) of an expression with dots and says which expressions with dots belong to a literal (`shown`, `printed`). Proved by induction on the fuel, for the node and for the loop over its siblings together; the code part is composed with C24.
* **C55** The printed text tells which tree of strings it is (partial). `_refuted`, for all strings and every indentation: values are put between quotes without escaping, so a tree with two children looks like one with a single child. What is true (numbers, chars, …) is C54_distinct_*.
* **C56** Iterators to surviving nodes stay valid (proved). The four policies keep no nodes besides the current one and the root, so the theorem compares the iterator made in the old heap with one made in the new heap and uses C03/C11/C14 there. The later state is any consistent world whose tree has the same root and contains the node; a conclusion about a tree whose root was replaced is not claimed (the iterator keeps the old root).
* **C57** Breadth-first iterators to surviving nodes stay valid (partial). `_partial`: if the nodes that wait in the queue at that node (`waiting`, LeafSpec.v: the next sibling, the first nodes of the later groups of siblings on the level, the first children of the nodes visited) are the same before and after, the loop visits the rest of the present order. `_refuted`, universally: whenever the next node in breadth-first order was released, `++` reads it (it is in the queue of the iterator), although the iterator's own node is untouched.
* **C58** A failed allocation leaves every tree as it was (proved). `Fail.v` repeats the node constructors with a number of nodes that can still be created; the failure of the allocator and of the constructor of the value (`late`) are both covered. `FailFacts.v` proves that they agree with the constructors of the model when nothing fails, touch no old node and create exactly one node per step. The conversions from a binary tree are in `ConvFail.v`/`PropConvFail.v` (`C58_convert`, `C58_convert_enough`).
* **C59** A failed allocation leaks nothing (partial). `_refuted`, universally: whatever the call and the moment, all the nodes created so far stay allocated and belong to no tree (allocate() guards nothing and children are held by raw pointers). `_partial`: nothing is lost if the very first allocation fails. The same for the conversions from a binary tree (`C59_convert_refuted`).
* **C60** A capture is found by its name (proved). The compile-time computations on names in `Names.v` (`matcher_traits`, `captures_t`, `index_of_capture`, the static assertions), proved to agree with the positions of the marks of C50.
* **C61** Names of captures are unique (partial). `_refuted`, universally: siblings with the same name are never compared, and the swapped specialization of `matcher_traits` makes a capture without a next sibling accept its own name inside. `_partial`: patterns with different names compile, and a repetition inside a capture with a next sibling is rejected.
* **C62** Leaves iterators to surviving leaves stay valid (partial). `C62_stay_*`: if the nodes on the way to the leaf that have a next sibling (`trail`, LeafSpec.v) are the same before and after, the loop continues with the leaves of the new tree (so siblings may be added or removed as long as none becomes or stops being a last child on that way). `_refuted`, universally: if the nearest such node has no next sibling any more, `++` dereferences null although the leaf is untouched.
* **C63** A leaves iterator made at a node continues with the leaves after it (partial). `_refuted`, universally, for every node of every tree: the loop from such an iterator visits the node (leaf or not) and ends. `C63_last_leaf_partial`: the last leaf is the only one where that is right.
* **C64** Every literal a binary tree accepts is built entirely (partial). False in general. The static_assert counts children that are not n(), so n(1)(n(2), n(), n(3)) compiles; the constructor and == look at the first two arguments only, size() at all of them. Proved for every literal: the first two arguments of each node are built, properly linked, and size() is the number of values written (with at most two arguments everywhere this is C16). Refuted for every literal with a further argument that is not n(): size() exceeds the number of nodes, and the tree built differs from the literal under ==; and for all values v(a,x) == n(v)(n(a), n(), n(b)).
* **C65** Iterator moves go to the relative they name (proved). The relative is given by the inductive specification leads (Moves.v), defined for every node and move (C65_moves_defined). The iterator obtained is the one the library makes for that node (iterator_at), so C07-C11 apply to it; for the two-way policies the rest of the sequence is stated directly. A move of an end iterator (null node) is not covered: it dereferences a null pointer. Leaves iterators are moved to the right node, but see C63 for what they visit next.
* **C66** Value matchers accept what they say (proved). `Values.v`: the value matchers and `match_value`, and an inductive specification `fits_tree` in terms of the values given by the user. Induction on the pattern, from C44. Values of the pattern and of the tree have the same type; `alternative_match` cannot be used (no `operator==`).
* **C67** Printing with addresses (partial). `PrintAt.v`: `print_node` with the formatting of the stream (base, fill) threaded through. The text is that of C54 for the tree whose values carry their addresses (`AddressSpec.v`). Partial: `std::hex` stays set on the stream, so every value but the root's is printed in hexadecimal: with values whose texts contain no `)` the text of a tree printed in full is the expected one exactly if the values below the root look the same either way (`C67_exact_*`), and wrong for every other tree (`C67_hex_refuted`).
* **C68** Printing a tree leaves the stream's formatting as it was (partial). Exact law: the formatting is that of before if and only if no address is printed (no digits, nothing shown) or it was hexadecimal with fill '0' already. Refuted for every tree otherwise.
* **C69** A filtered iterator is an iterator over the accepted elements (proved). `Filter.v`: filtered iterators as objects (iterator and optional predicate). Lists: the i-th accepted element splits the sequence of the policy; each loop of `++`/`--` is followed through the rejected elements (induction), from the step lemmas of C01-C08.
* **C70** A filtered iterator stands at accepted elements only (partial). Partial: the moves are inherited and do not look at the predicate, so the iterator stands at a rejected element whenever the relative is rejected (`C70_moves_*_refuted`, for every tree); the next ++ leads to an accepted one.
* **C71** An assigned filtered iterator behaves as the other (partial). Partial: `operator=` copies the iterator but not the predicate, so the next elements are those accepted by the old predicate (`C71_predicate_*_refuted`, for every tree); assigning to a default-constructed one and moving it reads an empty optional (`C71_none_*_refuted`).
* **C72** get_root and the breadth-first index of a node (proved). By induction on the path to the root, and by the breadth-first steps of C03 from the root. The index is unbounded (a natural number).
* **C73** A node's own account of its place (proved). From C36. N-ary: nodes with fewer than 2^64 children.
* **C74** Nodes go back to the allocator they came from (partial). Proved for every history of calls that do not mix allocators (`unmixed`): by an invariant over histories, from where the nodes of each tree come from after a call (AllocFacts.v). False for the four calls that mix them: move assignment to a non-empty tree releases its nodes to the other tree's allocator; after a swap, the insertion of a moved tree, or the copy of a tree with another policy, destroying the tree does so; each refuted for every state and every pair of unequal allocators.
* **C75** get_allocator returns the allocator supplied (partial). get_allocator() is the default-constructed allocator in every history, so the property holds exactly of trees whose allocator is the default one; refuted for every tree constructed with another one.
* **C76** Threads that only read share trees (partial). For every interleaving of the accesses to the two mutable members: an invariant (the memory holds 0 or the right value, and each thread's remaining program gives the right answers whatever it reads) shows that contents never change, every thread goes on until it has made all its calls, after at most 12 accesses per call, with the right answers; without data race if the sizes and arities of the trees read are stored, which calling size() and arity() once before ensures. A thread alone behaves as the functions of Tree.v (C76_alone). Not without data race in general: refuted for every tree whose size (or arity) is not stored and all threads that begin with size() (arity()). Missing: interleaving is sequentially consistent, which C++ does not promise in case of a race.
* **C77** Smart pointers to nodes and trees share no node and lose none (partial). Pointers are owners in the same table as trees; ownership (`consistent`) is an invariant of all valid calls of both, so nothing is shared or lost along any history; sizes are right if those given with a pointer are. A size given with the pointer is believed whatever it is: refuted for every wrong one.
* **C78** A node moved from another takes over its children (partial). Proved for the root of every whole tree of either kind (same children, same values, old root alone with its value, nothing else written). Refuted for every node that is not a root: parent and siblings still refer to the old node, which is cleared, so no assignment of contents to the trees is consistent any more.
* **C79** Nodes given to trees by smart pointers go back to their allocator (partial). Proved for every history of calls that do not mix allocators (`qunmixed`). False otherwise, each for every state: a tree made from a pointer uses a default-constructed allocator whatever the pointer's deleter has (`C79_new_refuted`); assignment keeps the tree's allocator (`C79_assign_refuted`); the children of a moved node stay with the allocator that made them (`C79_moved_refuted`).
* **C80** An increment or decrement that runs out of memory can be repeated (partial). Proved: which calls throw depends only on the memory left, a throwing call leaves the iterator at its node (`C80_increment_partial`, `C80_decrement_partial`), only breadth_first and leaves can throw, and `--` of leaves and `++` at the end of breadth_first can be repeated. False of the rest, each for every tree: breadth-first `++` and `--` and leaves `++` have already changed the queue or stack when they throw, so that repeating them skips whole subtrees (`C80_breadth_first_next_*`, `C80_breadth_first_previous_*`, `C80_leaves_next_*`), and begin() of leaves, repeated, visits leaves twice (`C80_leaves_begin_*`).
* **C81** An insertion that cannot make its breadth-first iterator changes nothing (partial). Proved: the other policies never need the memory (`C81_other_policies`), insert_over behaves as usual whenever one more node fits in the queue or the new subtree is a single node (`C81_insert_over_partial`), and a moved tree is never lost by it (`C81_insert_over_move`). False of the rest, for every tree, position and argument: insert_child_* and emplace_* throw after the child was linked (`C81_insert_child_refuted`), with a moved tree both trees then own its nodes and destroying both uses released memory (`C81_insert_child_move_refuted`), and insert_over leaks the nodes it made (`C81_insert_over_leak_refuted`). Failing copies of the position itself (a deque) are not modelled.
* **C82** One step of a generative navigator generates the node it goes to, in its place (partial). Proved for all steps forward (`C82_first_*`, `C82_next_*`), to the left and right child (`C82_sides_binary`), from the root (`C82_root`), and backwards as far as the nearest siblings pass the test (`C82_last_partial`, `C82_prev_none_nary`, `C82_prev_binary_partial`). False backwards, for every tree: the loop over previous siblings restarts from the same node and never ends once the nearest one fails (`C82_last_hang_refuted`, `C82_prev_hang_refuted`: out of fuel for every fuel), and in n-ary trees the copy of the previous sibling is appended behind the copy of the node itself (`C82_prev_order_refuted`).
* **C83** A failed creation of a node while a result is assigned changes nothing (proved). Model ResultFail.v: `result` with unique_ptr_alloc giving back what it holds when an exception passes. Proved by the same induction as C44 (ResultFailFacts.v); patterns with star are not covered.
* **C84** A value whose copy throws while a result is assigned loses no memory (partial). False for every tree, pattern and point of failure (`C84_leak_nary_refuted`, `C84_leak_binary_refuted`): allocate() does not give back the memory when the constructor throws. That the trees are unchanged also then is in C83.
* **C85** With memory enough, failures of node creation are not noticed by star patterns (proved). Model: `StarFail.v`. Proved by going through the ordinary construction call by call (`StarFailFacts.v`); that the ordinary call succeeds is C50.
* **C86** A failed creation of a node while the result of a star pattern is assigned loses no memory (partial). Without reluctant stars proved in full (`C86_eager_nary_partial`, `C86_eager_binary_partial`): with too few nodes the call throws and all is as before; if it is the constructor of a value that throws, one node is lost (as in C84). False for reluctant stars: whenever the only child of one matches deeper than the children of the root there is a point of failure at which the nodes built for the child are lost, in every tree and for every child pattern (`C86_leak_nary_refuted`, `C86_leak_binary_refuted`), because `child_head.second.release()` comes before the allocation in allocate_assign_parent.
* **C87** A generative navigator traversed in pre-order generates the whole pruned copy (partial). Pre-order over the generative navigator in `GenPre.v`; `PropGenPre.v` for n-ary and `PropGenPreBin.v` for binary trees. Proved when the last child of every node passes the predicate (`C87_generates_partial`, `C87_generates_binary_partial`, by induction on the tree, from the single steps of C82). False otherwise: `is_last_child` is not overridden and asks the nodes, not the predicate, so a node whose later siblings all fail is not seen as a last child, get_next_sibling answers null and the traversal ends, wherever in the tree it stands; the rest of the tree is never generated (`C87_early_refuted`, `C87_early_binary_refuted`, for every tree and position; the loop then ends with the copy as it is, `C87_lost_refuted`, `C87_lost_binary_refuted`).
* **C88** Searching an empty tree succeeds exactly if the pattern requires no node, and then the result is empty (proved). Searching with null (`pattern::search` calls search_node(null, ...)) in both pattern models: `PropStarEmpty.v` (`C88_search`, `C88_result_nary`, `C88_result_binary` for one/opt/star/capture patterns, `C88_plain` for the patterns without star, where all fail but an opt whose children are opts). Proved by induction on the pattern.

## 6. Findings

What the proofs showed about the code (theorem names where one states it).

1. **n-ary erase / `replace_with(nullptr)`**: on a first or only child it dereferences a
   null pointer (`C30_first_child_refuted`); on the last of several children it leaves the
   parent without last child, so that a later append loses nodes (`C30_last_child_refuted`).
   Middle children are right.
2. **Size cache**: replacing a leaf in a tree whose size is not yet known wraps it to
   2^64-1 (`C31_size_wraps_refuted`); `insert_child_front` of a literal and both
   `insert_child_*` of a tree add 1, not the number of nodes (`C31_size_refuted`);
   inserting an empty tree as a child adds 1; the arity of an inserted tree is ignored;
   `erase(first, last)` disturbs the cache.  `==` tests the caches first and is wrong then.
3. **insert_over at the root** returns an iterator whose navigator keeps the released root;
   pre-order `++` never reaches the end (`C41_returned_iterator_refuted`; for every tree: `C41_root_preorder_*_refuted`, and for the other policies the loop dereferences null, `C41_root_null_*_refuted`).  Into an empty tree
   it returns an iterator that points nowhere.
4. **insert_over at end()** of a non-empty tree throws after allocating: the new node leaks
   (`C33_insert_over_leak_refuted`).  **insert_child of a moved tree** that throws frees nodes the
   moved-from tree still owns: double free (`C34_insert_child_always_refuted`).
5. **n-ary views**: `==` dereferences null when the subtrees are equal and the left root has a
   next sibling but the right one none (`C22_next_sibling_refuted`); copying a view of a node
   with next siblings copies these too (`C42_view_nary_refuted`).
6. **leaves**: `--` does not maintain the stack (`C15_mixed_*_refuted`); an iterator built in the
   middle has an empty stack, so `++` ends early; `--` from the first leaf goes to the last.
   Post-/in-order `--` of `begin()` gives the root; breadth-first `--` of the root
   dereferences null.
7. **node_pred_navigator**: `get_prev_sibling` loops for ever if the previous sibling fails the
   predicate (`C37_backward_*_refuted`); `is_last`/`is_first` ignore the predicate, so pre-order ends early
   (`C43_preorder_refuted`).
8. **Binary literals with three slots** and `n()` in the middle: the third child is dropped, the
   size is wrong, `==` ignores the right child (`C64_*_refuted`).
9. **fixed**: begin == end; **siblings** begin..end enumerates the root's children.
10. **insert_over with a leaves iterator** on a leaf with a next sibling: the iterator's stack
    still holds the released node; its `++` is a use after free.
11. **Binary append** on a childless node fills the RIGHT slot; prepend on (l, ∅) gives (new, l);
    append on (∅, r) gives (r, new).  `insert_child_*` returns an iterator to the parent, not to the new node.
12. **opt(v) without children** matches any node (`C45_value_nary_refuted`, `C45_value_binary_refuted`, for every tree and every v), may report a node of an
    abandoned candidate (`C45_stale_refuted`) and may report success where there is no
    occurrence (`C45_false_positive_refuted`).
13. `multi_matcher::keep_assigning_children` loops for ever once a child has to be skipped
    (`continue` without advance): `C53_hang_nary_refuted`, `C53_hang_binary_refuted`.  The pattern's cache is never hit.  `detach_subtree` does not compile.
14. End iterators of two different empty trees compare equal (`C39_iterator_equality`).
15. **generative_navigator**: `get_first_child` after `get_last_child` pairs the first child with the node
    generated for the last one (`C47_pairing_refuted`); likewise with a binary node that has only a
    right child generated.  `reset_assignment_flags` assigns the pointers instead of the flags.
    `node != current` on multiple pointers (breadth_first.hpp 111) compares two bools in C++17.
16. **star**: backtracking starts below the first child of the abandoned node and so jumps over that child:
    a match is missed (`C49_missed_refuted`).  `subtree_cut` is not reset between searches
    (`C49_stale_refuted`).  `star(v)` without children matches a root that `v` does not accept (`C53_root_refuted`).
    `go_depth_first_ramification` sets `found` in the test whether or not it succeeds, so without a ramification it
    returns the bottom of the chain instead of null.  `get_search_funcion` is dead code.
17. **star results**: a reluctant `star` with several children duplicates the nodes they share on the way
    (`C51_duplicates_refuted`), and reads a null pointer if one of them took nothing (`C51_null_refuted`).
18. **Printing**: strings are quoted but not escaped, so different trees have the same text (`C55_quotes_refuted`).
    Dots in the place of all the children are indented by 4, not by `indentation_increment`.
19. **breadth_first iterators hold queued node pointers** (`open_nodes`): after erasing the next node in breadth-first
    order, `++` of an iterator at a surviving node is a use after free (`C57_breadth_first_*_refuted`).  `leaves`
    iterators keep a stack in the same way.
20. **Exceptions while nodes are created**: `allocate` does not release the memory when the constructor throws, and the
    constructors hold their children by raw pointers, so every node created before a bad_alloc (or before a throwing copy
    of a value) leaks (`C59_leak_refuted`).
21. **Named captures**: uniqueness of names is only checked between a capture and what is inside it, and not even that if
    it has no next sibling, because the specialization of `matcher_traits` for a matcher without siblings has
    `children_captures` and `siblings_captures` swapped (`C61_*_refuted`).  `index_of_capture` is 1, not 0, for the empty
    tuple, contrary to its comment (harmless).  `alternative_match` is not dispatched in `matcher::match_value`.
22. **Leaves iterators** keep the nodes on their way that have a next sibling: one made at a node (`other_policy(leaves)`,
    `go_child` and so on) has an empty stack and ends after one element (`C63_*_refuted`); `insert_over` through one
    leaves the released node on its stack, so `++` reads it (`C41_leaves_*_refuted`); erasing the sibling recorded makes
    `++` dereference null (`C62_*_refuted`).
23. **Printing with addresses** (`address_digits > 0`): `std::hex` and `std::setfill('0')` are never undone, so every value
    after the root's is printed in hexadecimal (`C67_hex_refuted`) and so is what the caller prints afterwards
    (`C68_hex_refuted`).  With 16 digits, the width of an address, the shift is by 64 bits: undefined.
24. **Filtered iterators**: `operator=` does not assign the predicate (`C71_*_refuted`); the inherited `go_*` moves do not
    look at it (`C70_*_refuted`) and return a reference to the unfiltered base.  The copy constructor takes a non-const
    reference, so a const filtered iterator cannot be copied and `std::reverse_iterator` cannot be used.
25. **Node base class**: `node::get_last_child() const` returns the first child (node.hpp 84-86); it is hidden by the
    derived classes' own, so only a call through the base class sees it.  No theorem.
26. **Stateful allocators**: move assignment takes over the other tree's allocator before releasing its own nodes, so they
    go to the wrong one (`C74_move_assign_refuted`); `swap` exchanges the nodes but not the allocators
    (`C74_swap_refuted`); a moved tree inserted into another keeps nodes of the first one's allocator
    (`C74_insert_move_refuted`); the copy constructor from another policy stores the other tree's allocator but creates
    the nodes with a default-constructed one (`C74_copy_policy_refuted`), and all constructors that create nodes use the
    allocator before it is constructed.  `get_allocator()` returns a member that is never set (`C75_refuted`).
27. **const is not thread safe**: `size()` and `arity()` are const but write `mutable` members without synchronization, and
    `==` calls them, so two threads reading a tree whose size is not stored race (`C76_race_refuted`).  Calling `size()`
    and `arity()` before sharing the tree avoids it (`C76_warm_partial`, `C76_no_race_partial`).
28. **Trees made from a smart pointer** believe any size and arity given with it (`C77_given_size_refuted`), and use a
    default-constructed allocator, not the one in the pointer's deleter (`C79_new_refuted`); assignment ignores it, too
    (`C79_assign_refuted`).
29. **Move constructors of nodes**: moving from a node that is not a root leaves its parent and siblings referring to the
    old, cleared node (`C78_inner_*_refuted`).  The value is copied, not moved (node.hpp 31-33 does not forward).
30. **Iterators without memory**: `++` and `--` of breadth_first and `++` of leaves change the queue or stack before the
    push that may throw; an iterator whose `++` threw skips subtrees afterwards, or visits leaves twice
    (`C80_*_refuted`).
31. **Insertions without memory for the queue**: insert_child_* and emplace_* make the iterator they return last: if the
    breadth-first queue gets no memory they throw although the child was added (`C81_insert_child_refuted`), and a moved
    tree then still owns the nodes that were linked into the other one (`C81_insert_child_move_refuted`).  insert_over
    releases the new nodes from their unique_ptr before `update` can throw, and leaks them
    (`C81_insert_over_leak_refuted`).  insert_over with a const_iterator does not compile
    (`craft_non_constant_iterator()` is called without its argument).
32. **A generative navigator going backwards**: get_prev_sibling and get_last_child never end when the nearest (for the
    last child: the two nearest) nodes fail the predicate (`C82_prev_hang_refuted`, `C82_last_hang_refuted`), and in n-ary
    trees what get_prev_sibling generates is appended at the end, in the wrong order (`C82_prev_order_refuted`).  The
    library itself only goes forward.
33. **A value that throws while a result is assigned** costs the memory of its node (`C84_leak_nary_refuted`,
    `C84_leak_binary_refuted`); everything else that was built is given back (`C83_nary`, `C83_binary`), unlike in the
    constructors of nodes (`C59_leak_refuted`).
34. **Reluctant stars leak when memory runs out**: multi_matcher.hpp 199 releases the nodes built so far before
    allocate_assign_parent allocates the parent; if that throws, they are lost (`C86_leak_nary_refuted`,
    `C86_leak_binary_refuted`).
35. **Pre-order over a generative navigator** ends early when the last child of a node it visits fails the predicate, as
    over `node_pred_navigator` (7): the rest of the copy is missing (`C87_early_refuted`, `C87_early_binary_refuted`).

## 7. Print Assumptions

Each file `Prop*.v` ends with `Print Assumptions` for its theorems.  For every one of the
following the answer is *Closed under the global context* (no axioms):

* `PropAddress.v`: `C67_nary_partial`, `C67_binary_partial`, `C67_same_text_nary`, `C67_same_text_binary`, `C67_exact_nary`, `C67_exact_binary`, `C67_hex_refuted`, `C68_nary_partial`, `C68_binary_partial`, `C68_hex_refuted`
* `PropAdopt.v`: `C77_new`, `C77_new_size`, `C77_given_size_refuted`, `C77_assign`, `C77_history`, `C77_all_released`, `C77_sizes`, `C78_root`, `C78_nary`, `C78_binary`, `C78_inner_nary_refuted`, `C78_inner_binary_refuted`
* `PropAdoptAlloc.v`: `C79_partial`, `C79_new_refuted`, `C79_assign_refuted`, `C79_moved_refuted`
* `PropAlloc.v`: `C74_partial`, `C74_move_assign_refuted`, `C74_swap_refuted`, `C74_insert_move_refuted`, `C74_copy_policy_refuted`, `C75_partial`, `C75_refuted`
* `PropConvFail.v`: `C58_convert`, `C58_convert_enough`, `C59_convert_refuted`
* `PropCopy.v`: `C42_view_binary`, `C42_view_nary_partial`, `C42_view_nary_refuted`
* `PropEdit.v`: `C27_positions_binary`, `C27_positions_nary`, `C27_insert_over`, `C27_insert_over_empty`, `C28_insert_child`, `C28_room`, `C28_full_throws`, `C29_erase`, `C29_erase_end`, `C29_erase_range`, `C30_erase_partial`, `C30_erase_range_partial`, `C30_first_child_refuted`, `C30_last_child_refuted`, `C33_insert_child`, `C33_insert_over_partial`, `C33_insert_over_refuted`, `C33_erase_end`, `C34_insert_over_partial`, `C34_insert_child_refuted`, `C34_insert_child_nary_refuted`, `C41_returned_iterator_refuted`, `C41_returned_iterator_binary_partial`, `C41_returned_iterator_nary_partial`
* `PropEditLast.v`: `C30_last_child_nary_refuted`
* `PropFail.v`: `C58_trees_unchanged`, `C58_enough`, `C59_leak_refuted`, `C59_first_partial`
* `PropFilter.v`: `C69_nary`, `C69_binary`, `C69_policy_nary`, `C69_policy_binary`, `C69_node_nary`, `C69_node_binary`, `C70_nary_partial`, `C70_binary_partial`, `C70_moves_nary_refuted`, `C70_moves_binary_refuted`, `C71_nary_partial`, `C71_predicate_nary_refuted`, `C71_none_nary_refuted`, `C71_binary_partial`, `C71_predicate_binary_refuted`, `C71_none_binary_refuted`
* `PropGen.v`: `C46_together_nary`, `C46_together_binary`, `C46_sides_binary`, `C46_equal`, `C47_generates_nary`, `C47_generates_binary`
* `PropGenPre.v`: `C87_generates_partial`, `C87_early_refuted`, `C87_lost_refuted`
* `PropGenPreBin.v`: `C87_generates_binary_partial`, `C87_early_binary_refuted`, `C87_lost_binary_refuted`
* `PropGenStep.v`: `C82_first_nary`, `C82_next_nary`, `C82_last_partial`, `C82_last_hang_refuted`, `C82_prev_hang_refuted`, `C82_prev_order_refuted`, `C82_prev_none_nary`, `C82_root`, `C47_pairing_refuted`, `C82_sides_binary`, `C82_first_binary`, `C82_next_binary`, `C82_prev_binary_partial`
* `PropHist.v`: `C35_history_partial`, `C35_all_released_partial`, `C31_size_arity_partial`, `C31_size_refuted`, `C31_size_wraps_refuted`
* `PropIter.v`: `C01_preorder_binary`, `C01_preorder_nary`, `C02_postorder_binary`, `C02_postorder_nary`, `C04_breadth_first_binary`, `C04_breadth_first_nary`, `C05_leaves_binary`, `C05_leaves_nary`, `C03_inorder_binary`, `C01_C04_orders_complete`, `C07_reverse_binary`, `C08_moves_binary`, `C09_reach_binary`, `C10_change_policy_binary`, `C11_ends_binary`, `C14_filtered_binary`, `C07_reverse_nary`, `C08_moves_nary`, `C09_reach_nary`, `C10_change_policy_nary`, `C11_ends_nary`, `C14_filtered_nary`, `C06_siblings_binary`, `C06_siblings_nary`, `C06_siblings_range_binary`, `C06_siblings_range_nary`, `C06_siblings_alone_binary`, `C06_siblings_alone_nary`, `C06_siblings_root`, `C06_fixed`, `C12_views_binary`, `C12_views_back_binary`, `C12_views_nary`, `C12_views_back_nary`, `C39_iterator_equality`
* `PropIterFail.v`: `C80_increment_partial`, `C80_decrement_partial`, `C80_other_policies_partial`, `C80_leaves_back_partial`, `C80_breadth_first_begin_partial`, `C80_breadth_first_next_nary_refuted`, `C80_breadth_first_next_binary_refuted`, `C80_breadth_first_previous_nary_refuted`, `C80_breadth_first_previous_binary_refuted`, `C80_leaves_next_nary_refuted`, `C80_leaves_next_binary_refuted`, `C80_leaves_begin_nary_refuted`, `C80_leaves_begin_binary_refuted`
* `PropLeaf.v`: `C15_backwards_binary_partial`, `C15_backwards_nary_partial`, `C15_forth_and_back_partial`, `C15_mixed_nary_refuted`, `C15_mixed_binary_refuted`
* `PropLeafLaw.v`: `C15_law_nary`, `C15_law_binary`, `C15_law_possible`, `C15_fine_nary_partial`, `C15_fine_binary_partial`, `C15_round_trip_nary_refuted`, `C15_round_trip_binary_refuted`, `C15_family`
* `PropLeafStay.v`: `C62_stay_nary`, `C62_stay_binary`, `C62_sibling_gone_nary_refuted`, `C62_sibling_gone_binary_refuted`, `C63_made_at_nary_refuted`, `C63_made_at_binary_refuted`, `C63_last_leaf_partial`, `C41_siblings_nary_partial`, `C41_siblings_binary_partial`, `C41_leaves_nary_partial`, `C41_leaves_binary_partial`, `C41_leaves_nary_refuted`, `C41_leaves_binary_refuted`
* `PropMatch.v`: `C40_search_nary`, `C40_search_binary`, `C40_search_empty`, `C40_leftmost_unique`, `C40_result_nary`, `C40_result_binary`, `C40_failed_nary`, `C40_failed_binary`, `C40_never_searched`
* `PropMove.v`: `C65_moves_defined`, `C65_moves_nary`, `C65_moves_binary`, `C65_other_node_nary`, `C65_other_node_binary`
* `PropName.v`: `C60_name_nary`, `C60_name_binary`, `C60_unknown`, `C61_siblings_refuted`, `C61_nested_refuted`, `C61_enforced_partial`
* `PropNode.v`: `C13_primitives_binary`, `C13_primitives_nary`, `C36_queries_binary`, `C36_queries_nary`, `C38_literals`, `C38_literal_children`
* `PropOpt.v`: `C44_search_nary`, `C44_search_binary`, `C44_search_empty`, `C44_best_unique`, `C44_result_nary`, `C44_result_binary`, `C44_failed_nary`, `C44_failed_binary`
* `PropPred.v`: `C37_forward_nary`, `C37_forward_binary`, `C37_sides_binary`, `C37_backward_nary_partial`, `C37_backward_binary_partial`, `C37_backward_nary_refuted`, `C37_backward_binary_refuted`, `C43_pruned_nary`, `C43_pruned_binary`, `C43_preorder_nary_partial`, `C43_preorder_binary_partial`, `C43_preorder_refuted`, `C43_preorder_exact_nary`, `C43_preorder_exact_binary`, `C43_preorder_prefix_nary`, `C43_preorder_prefix_binary`
* `PropPrint.v`: `C54_nary`, `C54_binary`, `C54_values`, `C54_code_nary`, `C54_code_binary`, `C54_distinct_nary`, `C54_distinct_binary`, `C55_quotes_refuted`
* `PropQueueFail.v`: `C81_other_policies`, `C81_insert_child_refuted`, `C81_insert_child_move_refuted`, `C81_insert_over_partial`, `C81_insert_over_leak_refuted`, `C81_insert_over_move`
* `PropResultFail.v`: `C83_nary`, `C83_binary`, `C84_leak_nary_refuted`, `C84_leak_binary_refuted`
* `PropRoot.v`: `C41_root_preorder_binary_refuted`, `C41_root_preorder_nary_refuted`, `C41_root_null_binary_refuted`, `C41_root_null_nary_refuted`, `C41_empty_refuted`
* `PropRootIndex.v`: `C72_nary`, `C72_binary`, `C73_nary`, `C73_binary`
* `PropSize.v`: `C31_two_erasures_refuted`, `C31_insert_child_refuted`, `C31_erase_insert_refuted`
* `PropSlots.v`: `C64_build_partial`, `C64_size_refuted`, `C64_unequal_refuted`, `C64_wrong_equal_refuted`
* `PropStar.v`: `C48_search_sound_nary`, `C48_search_sound_binary`, `C48_search_nary`, `C48_search_binary`, `C48_path_nary`, `C48_search_empty`, `C49_missed_refuted`, `C49_stale_refuted`
* `PropStarAlone.v`: `C52_alone_nary`, `C52_alone_binary`, `C52_empty`, `C53_hang_nary_refuted`, `C53_hang_binary_refuted`, `C53_root_refuted`
* `PropStarEmpty.v`: `C88_search`, `C88_result_nary`, `C88_result_binary`, `C88_plain`
* `PropStarFail.v`: `C85_nary`, `C85_binary`, `C86_leak_nary_refuted`, `C86_leak_binary_refuted`, `C86_eager_nary_partial`, `C86_eager_binary_partial`
* `PropStarResult.v`: `C50_result_nary`, `C50_result_binary`, `C50_result_unique`, `C50_never_searched`, `C51_duplicates_refuted`, `C51_null_refuted`
* `PropStay.v`: `C56_stay_binary`, `C56_stay_nary`, `C56_siblings_binary`, `C56_siblings_nary`, `C57_breadth_first_nary_refuted`, `C57_breadth_first_binary_refuted`, `C57_stay_nary_partial`, `C57_stay_binary_partial`
* `PropThread.v`: `C76_readers_partial`, `C76_no_race_partial`, `C76_warm_partial`, `C76_alone`, `C76_race_refuted`
* `PropThrow.v`: `C34_insert_child_always_refuted`, `C33_insert_over_leak_refuted`
* `PropTree.v`: `C16_construct_binary`, `C17_construct_nary`, `C18_copy_construct`, `C18_copy_assign`, `C18_view_assign`, `C19_move_construct`, `C19_move_assign`, `C19_self_move_assign`, `C20_swap`, `C21_equality`, `C21_equivalence`, `C24_literal_equality`, `C26_pure`, `C26_built`, `C32_clear`, `C32_destroy`
* `PropValue.v`: `C66_search_nary`, `C66_search_binary`
* `PropView.v`: `C22_view_shows`, `C22_binary_views`, `C22_nary_views_partial`, `C22_next_sibling_refuted`, `C23_nary_binary`, `C25_construct`, `C25_assign`
* `PropWeak.v`: `C45_search_ends_nary_partial`, `C45_search_ends_binary_partial`, `C45_value_nary_refuted`, `C45_value_binary_refuted`, `C45_stale_refuted`, `C45_false_positive_refuted`
