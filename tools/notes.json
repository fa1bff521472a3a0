{
 "C01": {
  "note": "Pre-order on `Policy.v`. zipper of the current position; `pre_increment` moves to the next position of `preorder`; induction over the positions. `C01_C04_orders_complete` says the order lists contain every node once, so that the statements do not depend on reading `preorder`."
 },
 "C02": {
  "note": "Post-order. as C01."
 },
 "C03": {
  "note": "In-order on binary nodes. as C01, over positions of binary trees (a node with only a right child keeps its empty left slot)."
 },
 "C04": {
  "note": "Breadth-first, with its queue. invariant: the queue holds the heads of the sibling groups still to be visited; `++` re-establishes it."
 },
 "C05": {
  "note": "Leaves, with its stack of ancestors. invariant: the stack holds the ancestors-or-self with a next sibling still to be visited."
 },
 "C06": {
  "note": "Siblings and fixed. zipper; `C06_siblings_range_*` gives the whole range begin..end forwards and backwards, `C06_siblings_alone_*` the case of a navigator without a root (a root node, a detached node)."
 },
 "C07": {
  "note": "Backward loops from `end()` with `--`. the backward steps are the inverse of the forward ones (mirror image of the tree for pre/post)."
 },
 "C08": {
  "note": "`++` and `--` as single steps, at every position, with equality of complete iterator states. step lemmas in both directions."
 },
 "C09": {
  "note": "The constructor of a breadth-first iterator at a node (`manage_initial_status`). the reconstructed queue equals the one of C04's invariant; needs the row navigation of C13."
 },
 "C10": {
  "note": "`other_policy`. the iterator obtained equals the one reached by iterating with the new policy."
 },
 "C11": {
  "note": "begin, end, `++end`, `--end`. computed from the step lemmas."
 },
 "C12": {
  "note": "Views: navigators rooted at an inner node. all iteration theorems are about a tree in place, whose root may have a parent and siblings; the root test of the navigator confines it."
 },
 "C13": {
  "note": "`get_other_branch`, `get_row_extremum`, `get_highest_leaf`, `get_deepest_extremum_child`. rows of the tree seen from a position (`RowFacts.v`), by induction on the context."
 },
 "C14": {
  "note": "`tree_iterator_filter`. over any policy whose forward order is known; induction on the list of remaining nodes."
 },
 "C15": {
  "note": "Leaves iterators under mixed moves. False in general (`C15_round_trip_*_refuted`, in every tree, at every leaf but the first that is not alone in its `family`): `--` pushes the family of the leaf (the leaves, from it on, below the node where it meets the leaf before it) on the stack, so a later `++` visits these leaves twice. `C15_law_*` gives the exact position after every sequence of moves (LeafLaw.v; all moves except `--` at the first leaf); `C15_fine_*_partial`: right if each `--` starts at the end or at a leaf alone in its family; backward iteration alone is right whatever the stack."
 },
 "C16": {
  "note": "Construction from a literal (binary). induction on the literal; the result is a consistent world with the new tree (`consistent`: disjoint, no leak)."
 },
 "C17": {
  "note": "Construction from a literal (n-ary). as C16; precondition: no `n()` inside (an empty node inside an n-ary literal is not meaningful and asserts)."
 },
 "C18": {
  "note": "Copy construction, copy assignment, assignment from a view. node copy by induction; release of the old nodes; `C18_copy_assign` includes i = j."
 },
 "C19": {
  "note": "Move construction and assignment. pointer transfer; world invariant; self-move leaves an empty tree without leak."
 },
 "C20": {
  "note": "`swap`. world invariant."
 },
 "C21": {
  "note": "`==` of two trees of a kind. by induction on both trees; the test of size and arity first is sound when `size()`/`arity()` are right (`caches`, see C31)."
 },
 "C22": {
  "note": "`==` of views. binary: always right. n-ary: right if the left view's root has no next sibling; otherwise (`_refuted`, universal) equal subtrees lead to a null dereference."
 },
 "C23": {
  "note": "`nary == binary`. induction; absent children skipped."
 },
 "C24": {
  "note": "`tree == literal`. induction on the literal, both kinds; precondition as C21 and, for binary literals, at most two slots per node (`two_slots`)."
 },
 "C25": {
  "note": "n-ary from binary. induction."
 },
 "C26": {
  "note": "`size()`, `arity()` on fresh trees. calculated by induction, cached values shown right."
 },
 "C27": {
  "note": "`insert_over`/`emplace_over` with a value, literal, copied tree, moved tree or view. link surgery at a position (zipper), frame conditions, release of the old subtree; the iterator's update for each policy."
 },
 "C28": {
  "note": "`insert_child_front/back`, `emplace_child_*`. as C27; `C28_room` says when a binary node has room; `C28_full_throws` the exception."
 },
 "C29": {
  "note": "`erase` on binary trees; ranges. as C27; ranges by induction."
 },
 "C30": {
  "note": "`erase` on n-ary trees. Proved for the root and for children that are neither first nor last. False for the others, in every tree: removing a first child is a null dereference (`C30_first_child_refuted`); removing a last child that has a previous sibling frees the right nodes and leaves every other node right, except that the parent, which still has children, no longer has a last child (`C30_last_child_nary_refuted`). `C30_last_child_refuted` is a history in which a child added afterwards is lost and leaked."
 },
 "C31": {
  "note": "The size and arity caches along histories. `_partial`: along histories of calls that do not disturb the caches (`careful`); `_refuted`: insert_child_front of a literal, replacing a leaf in a tree of unknown size (wraps to 2^64-1). PropSize.v says when they are wrong, for every tree of either kind: erasing an inner node and then a leaf below the root makes size() return 2^64-1; insert_child_* of a tree (copy, move, view) or of a literal at the front counts as one node; after erasing an inner node, an insertion makes size() return the number of inserted nodes only (and, for a value, arity() the number of children of the node it was added to)."
 },
 "C32": {
  "note": "`clear`, destructor. release by induction, world invariant."
 },
 "C33": {
  "note": "Exceptions. insert_child and erase: state unchanged. insert_over at end(): what the call built leaks, for every tree and every argument except a moved tree (`C33_insert_over_leak_refuted`)."
 },
 "C34": {
  "note": "Exceptions with a moved tree. insert_over at end() and moving a tree into itself: safe. insert_child: always (`C34_insert_child_always_refuted`, every tree and every non-empty moved tree) the moved-from tree keeps a pointer to released nodes, and its destructor uses them."
 },
 "C35": {
  "note": "Histories of calls. induction over the history with the world invariant. `_partial`: the calls refuted in C30, C33, C34, C42 are excluded by `valid`."
 },
 "C36": {
  "note": "Node queries. positions."
 },
 "C37": {
  "note": "Predicate navigator primitives. forward: proved. Backward `_partial`: proved if the immediate neighbour passes or there is none (for `get_last_child`: one of the last two children passes, or there are fewer than two); otherwise an endless loop (`_refuted`, for every fuel)."
 },
 "C38": {
  "note": "Literals: size, arity, levels, indexes. induction on the literal, list of its nodes."
 },
 "C39": {
  "note": "Iterator equality. for iterators over (views of) trees in a consistent world; end iterators of two empty trees are equal."
 },
 "C40": {
  "note": "Patterns of `one` and `cpt`: `search`, `assign_result`, `assign_mark`. `search_node` by induction on the pattern with the iterator's remaining siblings as a list; leftmost choice suffices; result by induction on the matched tree. Derived from C44."
 },
 "C41": {
  "note": "The iterator returned by insert_over. `_partial`: nodes other than the root, policies pre-order, post-order, in-order and breadth-first; siblings (every child of every node); leaves, if the replaced leaf is a last child: then the loop visits the root of what was inserted (not its leaves, if it has children) and the leaves after it. Missing because false, each proved for every tree and every argument: at the root of a non-empty tree the returned iterator's navigator keeps the released root; pre-order: it never ends (after n increments it is at node n modulo the size); post-order, in-order, breadth-first: it visits the rest, then denotes no element but differs from end(), so the loop dereferences null; in an empty tree it denotes no element. With the policy leaves, a leaf that has a next sibling: `++` reads the released node."
 },
 "C42": {
  "note": "Copying views. binary: right. n-ary: right if the viewed node is the root or a last child; otherwise the following siblings are copied and leaked (`_refuted`, universal)."
 },
 "C43": {
  "note": "Iteration with a predicate navigator. post-order, breadth-first and leaves, and in-order for binary trees: the pruned tree. Pre-order `_partial`: right if the last child of every node passes; else it may end early (`_refuted`). C43_preorder_exact_* gives what pre-order visits for every tree and every predicate (EarlySpec.v `met`), and C43_preorder_prefix_* that it is always the beginning of the pre-order of the cut tree."
 },
 "C44": {
  "note": "Patterns with `opt` (with children). as C40, with the specification `OptSpec.v`."
 },
 "C45": {
  "note": "Patterns with childless `opt`. `_partial`: the search ends and touches only nodes of the tree. `_refuted`: value ignored, stale nodes reported, false positives."
 },
 "C46": {
  "note": "`multiple_node_pointer` in `Gen.v`; paths in `PathSpec.v`. by induction over paths every step of one component is `node_after`; the same shape gives the same path."
 },
 "C47": {
  "note": "`generative_navigator` and breadth-first over it in `Gen.v`, n-ary and binary. Invariant over the queue: what is generated, completed by what is pending, is the pruned tree (`GenInv.v`), refined to the heap (`GenRun.v`), for any stateful predicate that may also put trees in. `C47_pairing_refuted` (PropGenStep.v), for every node with two children that pass: get_last_child followed by get_first_child pairs the first child with the node generated for the last."
 },
 "C48": {
  "note": "`Star.v` models multi_matcher.hpp with its callbacks; `StarSpec.v` says what a match is. `StarWalk.v`: what the iterators of a star enumerate under any `subtree_cut`; `StarFacts.v`: induction over the pattern, with the invariant that leftover cuts do no harm."
 },
 "C49": {
  "note": "`_refuted`: `star()(a, b)` misses a match in r(a(a, b)) because backtracking jumps over it; `subtree_cut` is never reset, so a later search of a changed tree misses a match. What is true (single-child and disjoint stars, unchanged tree) is C48."
 },
 "C50": {
  "note": "`StarResultSpec.v` says what is reported for a match. `StarTarget.v`: `check_target` as the predicate of a generation; `StarResult.v`: induction over the pattern, generic in the node type; `StarKinds.v`: n-ary and binary; `StarMarks.v`: captures; `StarUnique.v`: one result per match."
 },
 "C51": {
  "note": "`_refuted`: a reluctant star with two children below the same node reports that node twice (the last cloned node of a path is not put into `cloned_nodes`); a child that took nothing (`opt`) makes it read a null pointer. What is true (one child) is C50."
 },
 "C52": {
  "note": "`StarAlone.v`: induction over the number of steps of `keep_assigning_children`, generic in the node type; `StarAloneUser.v`: the search, and both node types."
 },
 "C53": {
  "note": "`_refuted`, for every tree: with any node below the root that the test rejects the call never ends (every number of steps is used up); with a test that rejects everything the root is matched and reported all the same. What is true is C52."
 },
 "C54": {
  "note": "`Print.v` models `print_node` with the limit shared by all the recursive calls; the text of a value is a parameter (`show`), addresses are not printed (`address_digits` = 0, the default). `PrintSpec.v` gives the text (`item_text`) of an expression with dots and says which expressions with dots belong to a literal (`shown`, `printed`). Proved by induction on the fuel, for the node and for the loop over its siblings together; the code part is composed with C24."
 },
 "C55": {
  "note": "`_refuted`, for all strings and every indentation: values are put between quotes without escaping, so a tree with two children looks like one with a single child. What is true (numbers, chars, …) is C54_distinct_*."
 },
 "C56": {
  "note": "The four policies keep no nodes besides the current one and the root, so the theorem compares the iterator made in the old heap with one made in the new heap and uses C03/C11/C14 there. The later state is any consistent world whose tree has the same root and contains the node; a conclusion about a tree whose root was replaced is not claimed (the iterator keeps the old root)."
 },
 "C57": {
  "note": "`_partial`: if the nodes that wait in the queue at that node (`waiting`, LeafSpec.v: the next sibling, the first nodes of the later groups of siblings on the level, the first children of the nodes visited) are the same before and after, the loop visits the rest of the present order. `_refuted`, universally: whenever the next node in breadth-first order was released, `++` reads it (it is in the queue of the iterator), although the iterator's own node is untouched."
 },
 "C58": {
  "note": "`Fail.v` repeats the node constructors with a number of nodes that can still be created; the failure of the allocator and of the constructor of the value (`late`) are both covered. `FailFacts.v` proves that they agree with the constructors of the model when nothing fails, touch no old node and create exactly one node per step. The conversions from a binary tree are in `ConvFail.v`/`PropConvFail.v` (`C58_convert`, `C58_convert_enough`)."
 },
 "C59": {
  "note": "`_refuted`, universally: whatever the call and the moment, all the nodes created so far stay allocated and belong to no tree (allocate() guards nothing and children are held by raw pointers). `_partial`: nothing is lost if the very first allocation fails. The same for the conversions from a binary tree (`C59_convert_refuted`)."
 },
 "C60": {
  "note": "The compile-time computations on names in `Names.v` (`matcher_traits`, `captures_t`, `index_of_capture`, the static assertions), proved to agree with the positions of the marks of C50."
 },
 "C61": {
  "note": "`_refuted`, universally: siblings with the same name are never compared, and the swapped specialization of `matcher_traits` makes a capture without a next sibling accept its own name inside. `_partial`: patterns with different names compile, and a repetition inside a capture with a next sibling is rejected."
 },
 "C62": {
  "note": "`C62_stay_*`: if the nodes on the way to the leaf that have a next sibling (`trail`, LeafSpec.v) are the same before and after, the loop continues with the leaves of the new tree (so siblings may be added or removed as long as none becomes or stops being a last child on that way). `_refuted`, universally: if the nearest such node has no next sibling any more, `++` dereferences null although the leaf is untouched."
 },
 "C63": {
  "note": "`_refuted`, universally, for every node of every tree: the loop from such an iterator visits the node (leaf or not) and ends. `C63_last_leaf_partial`: the last leaf is the only one where that is right."
 },
 "C64": {
  "note": "False in general. The static_assert counts children that are not n(), so n(1)(n(2), n(), n(3)) compiles; the constructor and == look at the first two arguments only, size() at all of them. Proved for every literal: the first two arguments of each node are built, properly linked, and size() is the number of values written (with at most two arguments everywhere this is C16). Refuted for every literal with a further argument that is not n(): size() exceeds the number of nodes, and the tree built differs from the literal under ==; and for all values v(a,x) == n(v)(n(a), n(), n(b))."
 },
 "C65": {
  "note": "The relative is given by the inductive specification leads (Moves.v), defined for every node and move (C65_moves_defined). The iterator obtained is the one the library makes for that node (iterator_at), so C07-C11 apply to it; for the two-way policies the rest of the sequence is stated directly. A move of an end iterator (null node) is not covered: it dereferences a null pointer. Leaves iterators are moved to the right node, but see C63 for what they visit next."
 },
 "C66": {
  "note": "`Values.v`: the value matchers and `match_value`, and an inductive specification `fits_tree` in terms of the values given by the user. Induction on the pattern, from C44. Values of the pattern and of the tree have the same type; `alternative_match` cannot be used (no `operator==`)."
 },
 "C67": {
  "note": "`PrintAt.v`: `print_node` with the formatting of the stream (base, fill) threaded through. The text is that of C54 for the tree whose values carry their addresses (`AddressSpec.v`). Partial: `std::hex` stays set on the stream, so every value but the root's is printed in hexadecimal: with values whose texts contain no `)` the text of a tree printed in full is the expected one exactly if the values below the root look the same either way (`C67_exact_*`), and wrong for every other tree (`C67_hex_refuted`)."
 },
 "C68": {
  "note": "Exact law: the formatting is that of before if and only if no address is printed (no digits, nothing shown) or it was hexadecimal with fill '0' already. Refuted for every tree otherwise."
 },
 "C69": {
  "note": "`Filter.v`: filtered iterators as objects (iterator and optional predicate). Lists: the i-th accepted element splits the sequence of the policy; each loop of `++`/`--` is followed through the rejected elements (induction), from the step lemmas of C01-C08."
 },
 "C70": {
  "note": "Partial: the moves are inherited and do not look at the predicate, so the iterator stands at a rejected element whenever the relative is rejected (`C70_moves_*_refuted`, for every tree); the next ++ leads to an accepted one."
 },
 "C71": {
  "note": "Partial: `operator=` copies the iterator but not the predicate, so the next elements are those accepted by the old predicate (`C71_predicate_*_refuted`, for every tree); assigning to a default-constructed one and moving it reads an empty optional (`C71_none_*_refuted`)."
 },
 "C72": {
  "note": "By induction on the path to the root, and by the breadth-first steps of C03 from the root. The index is unbounded (a natural number)."
 },
 "C73": {
  "note": "From C36. N-ary: nodes with fewer than 2^64 children."
 },
 "C74": {
  "note": "Proved for every history of calls that do not mix allocators (`unmixed`): by an invariant over histories, from where the nodes of each tree come from after a call (AllocFacts.v). False for the four calls that mix them: move assignment to a non-empty tree releases its nodes to the other tree's allocator; after a swap, the insertion of a moved tree, or the copy of a tree with another policy, destroying the tree does so; each refuted for every state and every pair of unequal allocators."
 },
 "C75": {
  "note": "get_allocator() is the default-constructed allocator in every history, so the property holds exactly of trees whose allocator is the default one; refuted for every tree constructed with another one."
 },
 "C76": {
  "note": "For every interleaving of the accesses to the two mutable members: an invariant (the memory holds 0 or the right value, and each thread's remaining program gives the right answers whatever it reads) shows that contents never change, every thread goes on until it has made all its calls, after at most 12 accesses per call, with the right answers; without data race if the sizes and arities of the trees read are stored, which calling size() and arity() once before ensures. A thread alone behaves as the functions of Tree.v (C76_alone). Not without data race in general: refuted for every tree whose size (or arity) is not stored and all threads that begin with size() (arity()). Missing: interleaving is sequentially consistent, which C++ does not promise in case of a race."
 },
 "C77": {
  "note": "Pointers are owners in the same table as trees; ownership (`consistent`) is an invariant of all valid calls of both, so nothing is shared or lost along any history; sizes are right if those given with a pointer are. A size given with the pointer is believed whatever it is: refuted for every wrong one."
 },
 "C78": {
  "note": "Proved for the root of every whole tree of either kind (same children, same values, old root alone with its value, nothing else written). Refuted for every node that is not a root: parent and siblings still refer to the old node, which is cleared, so no assignment of contents to the trees is consistent any more."
 },
 "C79": {
  "note": "Proved for every history of calls that do not mix allocators (`qunmixed`). False otherwise, each for every state: a tree made from a pointer uses a default-constructed allocator whatever the pointer's deleter has (`C79_new_refuted`); assignment keeps the tree's allocator (`C79_assign_refuted`); the children of a moved node stay with the allocator that made them (`C79_moved_refuted`)."
 },
 "C80": {
  "note": "Proved: which calls throw depends only on the memory left, a throwing call leaves the iterator at its node (`C80_increment_partial`, `C80_decrement_partial`), only breadth_first and leaves can throw, and `--` of leaves and `++` at the end of breadth_first can be repeated. False of the rest, each for every tree: breadth-first `++` and `--` and leaves `++` have already changed the queue or stack when they throw, so that repeating them skips whole subtrees (`C80_breadth_first_next_*`, `C80_breadth_first_previous_*`, `C80_leaves_next_*`), and begin() of leaves, repeated, visits leaves twice (`C80_leaves_begin_*`)."
 },
 "C81": {
  "note": "Proved: the other policies never need the memory (`C81_other_policies`), insert_over behaves as usual whenever one more node fits in the queue or the new subtree is a single node (`C81_insert_over_partial`), and a moved tree is never lost by it (`C81_insert_over_move`). False of the rest, for every tree, position and argument: insert_child_* and emplace_* throw after the child was linked (`C81_insert_child_refuted`), with a moved tree both trees then own its nodes and destroying both uses released memory (`C81_insert_child_move_refuted`), and insert_over leaks the nodes it made (`C81_insert_over_leak_refuted`). Failing copies of the position itself (a deque) are not modelled."
 },
 "C82": {
  "note": "Proved for all steps forward (`C82_first_*`, `C82_next_*`), to the left and right child (`C82_sides_binary`), from the root (`C82_root`), and backwards as far as the nearest siblings pass the test (`C82_last_partial`, `C82_prev_none_nary`, `C82_prev_binary_partial`). False backwards, for every tree: the loop over previous siblings restarts from the same node and never ends once the nearest one fails (`C82_last_hang_refuted`, `C82_prev_hang_refuted`: out of fuel for every fuel), and in n-ary trees the copy of the previous sibling is appended behind the copy of the node itself (`C82_prev_order_refuted`)."
 },
 "C83": {
  "note": "Model ResultFail.v: `result` with unique_ptr_alloc giving back what it holds when an exception passes. Proved by the same induction as C44 (ResultFailFacts.v); patterns with star are not covered."
 },
 "C84": {
  "note": "False for every tree, pattern and point of failure (`C84_leak_nary_refuted`, `C84_leak_binary_refuted`): allocate() does not give back the memory when the constructor throws. That the trees are unchanged also then is in C83."
 },
 "C85": {
  "note": "Model: `StarFail.v`. Proved by going through the ordinary construction call by call (`StarFailFacts.v`); that the ordinary call succeeds is C50."
 },
 "C86": {
  "note": "Without reluctant stars proved in full (`C86_eager_nary_partial`, `C86_eager_binary_partial`): with too few nodes the call throws and all is as before; if it is the constructor of a value that throws, one node is lost (as in C84). False for reluctant stars: whenever the only child of one matches deeper than the children of the root there is a point of failure at which the nodes built for the child are lost, in every tree and for every child pattern (`C86_leak_nary_refuted`, `C86_leak_binary_refuted`), because `child_head.second.release()` comes before the allocation in allocate_assign_parent."
 },
 "C87": {
  "note": "Pre-order over the generative navigator in `GenPre.v`; `PropGenPre.v` for n-ary and `PropGenPreBin.v` for binary trees. Proved when the last child of every node passes the predicate (`C87_generates_partial`, `C87_generates_binary_partial`, by induction on the tree, from the single steps of C82). False otherwise: `is_last_child` is not overridden and asks the nodes, not the predicate, so a node whose later siblings all fail is not seen as a last child, get_next_sibling answers null and the traversal ends, wherever in the tree it stands; the rest of the tree is never generated (`C87_early_refuted`, `C87_early_binary_refuted`, for every tree and position; the loop then ends with the copy as it is, `C87_lost_refuted`, `C87_lost_binary_refuted`)."
 },
 "C88": {
  "note": "Searching with null (`pattern::search` calls search_node(null, ...)) in both pattern models: `PropStarEmpty.v` (`C88_search`, `C88_result_nary`, `C88_result_binary` for one/opt/star/capture patterns, `C88_plain` for the patterns without star, where all fail but an opt whose children are opts). Proved by induction on the pattern."
 }
}