{
 "claims": [
  {
   "property": "C01",
   "status": "proved",
   "theorems": [
    "C01_preorder_binary",
    "C01_preorder_nary",
    "C01_C04_orders_complete"
   ],
   "note": "Pre-order on `Policy.v`. zipper of the current position; `pre_increment` moves to the next position of `preorder`; induction over the positions. `C01_C04_orders_complete` says the order lists contain every node once, so that the statements do not depend on reading `preorder`."
  },
  {
   "property": "C02",
   "status": "proved",
   "theorems": [
    "C02_postorder_binary",
    "C02_postorder_nary",
    "C01_C04_orders_complete"
   ],
   "note": "Post-order. as C01."
  },
  {
   "property": "C03",
   "status": "proved",
   "theorems": [
    "C03_inorder_binary",
    "C01_C04_orders_complete"
   ],
   "note": "In-order on binary nodes. as C01, over positions of binary trees (a node with only a right child keeps its empty left slot)."
  },
  {
   "property": "C04",
   "status": "proved",
   "theorems": [
    "C04_breadth_first_binary",
    "C04_breadth_first_nary",
    "C01_C04_orders_complete"
   ],
   "note": "Breadth-first, with its queue. invariant: the queue holds the heads of the sibling groups still to be visited; `++` re-establishes it."
  },
  {
   "property": "C05",
   "status": "proved",
   "theorems": [
    "C05_leaves_binary",
    "C05_leaves_nary"
   ],
   "note": "Leaves, with its stack of ancestors. invariant: the stack holds the ancestors-or-self with a next sibling still to be visited."
  },
  {
   "property": "C06",
   "status": "proved",
   "theorems": [
    "C06_siblings_binary",
    "C06_siblings_nary",
    "C06_siblings_range_binary",
    "C06_siblings_range_nary",
    "C06_siblings_alone_binary",
    "C06_siblings_alone_nary",
    "C06_siblings_root",
    "C06_fixed"
   ],
   "note": "Siblings and fixed. zipper; `C06_siblings_range_*` gives the whole range begin..end forwards and backwards, `C06_siblings_alone_*` the case of a navigator without a root (a root node, a detached node)."
  },
  {
   "property": "C07",
   "status": "proved",
   "theorems": [
    "C07_reverse_binary",
    "C07_reverse_nary"
   ],
   "note": "Backward loops from `end()` with `--`. the backward steps are the inverse of the forward ones (mirror image of the tree for pre/post)."
  },
  {
   "property": "C08",
   "status": "proved",
   "theorems": [
    "C08_moves_binary",
    "C08_moves_nary"
   ],
   "note": "`++` and `--` as single steps, at every position, with equality of complete iterator states. step lemmas in both directions."
  },
  {
   "property": "C09",
   "status": "proved",
   "theorems": [
    "C09_reach_binary",
    "C09_reach_nary"
   ],
   "note": "The constructor of a breadth-first iterator at a node (`manage_initial_status`). the reconstructed queue equals the one of C04's invariant; needs the row navigation of C13."
  },
  {
   "property": "C10",
   "status": "proved",
   "theorems": [
    "C10_change_policy_binary",
    "C10_change_policy_nary"
   ],
   "note": "`other_policy`. the iterator obtained equals the one reached by iterating with the new policy."
  },
  {
   "property": "C11",
   "status": "proved",
   "theorems": [
    "C11_ends_binary",
    "C11_ends_nary"
   ],
   "note": "begin, end, `++end`, `--end`. computed from the step lemmas."
  },
  {
   "property": "C12",
   "status": "proved",
   "theorems": [
    "C12_views_binary",
    "C12_views_back_binary",
    "C12_views_nary",
    "C12_views_back_nary"
   ],
   "note": "Views: navigators rooted at an inner node. all iteration theorems are about a tree in place, whose root may have a parent and siblings; the root test of the navigator confines it."
  },
  {
   "property": "C13",
   "status": "proved",
   "theorems": [
    "C13_primitives_binary",
    "C13_primitives_nary"
   ],
   "note": "`get_other_branch`, `get_row_extremum`, `get_highest_leaf`, `get_deepest_extremum_child`. rows of the tree seen from a position (`RowFacts.v`), by induction on the context."
  },
  {
   "property": "C14",
   "status": "proved",
   "theorems": [
    "C14_filtered_binary",
    "C14_filtered_nary"
   ],
   "note": "`tree_iterator_filter`. over any policy whose forward order is known; induction on the list of remaining nodes."
  },
  {
   "property": "C15",
   "status": "partial",
   "theorems": [
    "C15_backwards_binary_partial",
    "C15_backwards_nary_partial",
    "C15_forth_and_back_partial",
    "C15_mixed_nary_refuted",
    "C15_mixed_binary_refuted",
    "C15_law_nary",
    "C15_law_binary",
    "C15_law_possible",
    "C15_fine_nary_partial",
    "C15_fine_binary_partial",
    "C15_round_trip_nary_refuted",
    "C15_round_trip_binary_refuted",
    "C15_family"
   ],
   "note": "Leaves iterators under mixed moves. False in general (`C15_round_trip_*_refuted`, in every tree, at every leaf but the first that is not alone in its `family`): `--` pushes the family of the leaf (the leaves, from it on, below the node where it meets the leaf before it) on the stack, so a later `++` visits these leaves twice. `C15_law_*` gives the exact position after every sequence of moves (LeafLaw.v; all moves except `--` at the first leaf); `C15_fine_*_partial`: right if each `--` starts at the end or at a leaf alone in its family; backward iteration alone is right whatever the stack."
  },
  {
   "property": "C16",
   "status": "proved",
   "theorems": [
    "C16_construct_binary"
   ],
   "note": "Construction from a literal (binary). induction on the literal; the result is a consistent world with the new tree (`consistent`: disjoint, no leak)."
  },
  {
   "property": "C17",
   "status": "proved",
   "theorems": [
    "C17_construct_nary"
   ],
   "note": "Construction from a literal (n-ary). as C16; precondition: no `n()` inside (an empty node inside an n-ary literal is not meaningful and asserts)."
  },
  {
   "property": "C18",
   "status": "proved",
   "theorems": [
    "C18_copy_construct",
    "C18_copy_assign",
    "C18_view_assign"
   ],
   "note": "Copy construction, copy assignment, assignment from a view. node copy by induction; release of the old nodes; `C18_copy_assign` includes i = j."
  },
  {
   "property": "C19",
   "status": "proved",
   "theorems": [
    "C19_move_construct",
    "C19_move_assign",
    "C19_self_move_assign"
   ],
   "note": "Move construction and assignment. pointer transfer; world invariant; self-move leaves an empty tree without leak."
  },
  {
   "property": "C20",
   "status": "proved",
   "theorems": [
    "C20_swap"
   ],
   "note": "`swap`. world invariant."
  },
  {
   "property": "C21",
   "status": "proved",
   "theorems": [
    "C21_equality",
    "C21_equivalence"
   ],
   "note": "`==` of two trees of a kind. by induction on both trees; the test of size and arity first is sound when `size()`/`arity()` are right (`caches`, see C31)."
  },
  {
   "property": "C22",
   "status": "partial",
   "theorems": [
    "C22_view_shows",
    "C22_binary_views",
    "C22_nary_views_partial",
    "C22_next_sibling_refuted"
   ],
   "note": "`==` of views. binary: always right. n-ary: right if the left view's root has no next sibling; otherwise (`_refuted`, universal) equal subtrees lead to a null dereference."
  },
  {
   "property": "C23",
   "status": "proved",
   "theorems": [
    "C23_nary_binary"
   ],
   "note": "`nary == binary`. induction; absent children skipped."
  },
  {
   "property": "C24",
   "status": "proved",
   "theorems": [
    "C24_literal_equality"
   ],
   "note": "`tree == literal`. induction on the literal, both kinds; precondition as C21 and, for binary literals, at most two slots per node (`two_slots`)."
  },
  {
   "property": "C25",
   "status": "proved",
   "theorems": [
    "C25_construct",
    "C25_assign"
   ],
   "note": "n-ary from binary. induction."
  },
  {
   "property": "C26",
   "status": "proved",
   "theorems": [
    "C26_pure",
    "C26_built"
   ],
   "note": "`size()`, `arity()` on fresh trees. calculated by induction, cached values shown right."
  },
  {
   "property": "C27",
   "status": "proved",
   "theorems": [
    "C27_positions_binary",
    "C27_positions_nary",
    "C27_insert_over",
    "C27_insert_over_empty"
   ],
   "note": "`insert_over`/`emplace_over` with a value, literal, copied tree, moved tree or view. link surgery at a position (zipper), frame conditions, release of the old subtree; the iterator's update for each policy."
  },
  {
   "property": "C28",
   "status": "proved",
   "theorems": [
    "C28_insert_child",
    "C28_room",
    "C28_full_throws"
   ],
   "note": "`insert_child_front/back`, `emplace_child_*`. as C27; `C28_room` says when a binary node has room; `C28_full_throws` the exception."
  },
  {
   "property": "C29",
   "status": "proved",
   "theorems": [
    "C29_erase",
    "C29_erase_end",
    "C29_erase_range"
   ],
   "note": "`erase` on binary trees; ranges. as C27; ranges by induction."
  },
  {
   "property": "C30",
   "status": "partial",
   "theorems": [
    "C30_erase_partial",
    "C30_erase_range_partial",
    "C30_first_child_refuted",
    "C30_last_child_refuted",
    "C30_last_child_nary_refuted"
   ],
   "note": "`erase` on n-ary trees. Proved for the root and for children that are neither first nor last. False for the others, in every tree: removing a first child is a null dereference (`C30_first_child_refuted`); removing a last child that has a previous sibling frees the right nodes and leaves every other node right, except that the parent, which still has children, no longer has a last child (`C30_last_child_nary_refuted`). `C30_last_child_refuted` is a history in which a child added afterwards is lost and leaked."
  },
  {
   "property": "C31",
   "status": "partial",
   "theorems": [
    "C31_size_arity_partial",
    "C31_size_refuted",
    "C31_size_wraps_refuted",
    "C31_two_erasures_refuted",
    "C31_insert_child_refuted",
    "C31_erase_insert_refuted"
   ],
   "note": "The size and arity caches along histories. `_partial`: along histories of calls that do not disturb the caches (`careful`); `_refuted`: insert_child_front of a literal, replacing a leaf in a tree of unknown size (wraps to 2^64-1). PropSize.v says when they are wrong, for every tree of either kind: erasing an inner node and then a leaf below the root makes size() return 2^64-1; insert_child_* of a tree (copy, move, view) or of a literal at the front counts as one node; after erasing an inner node, an insertion makes size() return the number of inserted nodes only (and, for a value, arity() the number of children of the node it was added to)."
  },
  {
   "property": "C32",
   "status": "proved",
   "theorems": [
    "C32_clear",
    "C32_destroy"
   ],
   "note": "`clear`, destructor. release by induction, world invariant."
  },
  {
   "property": "C33",
   "status": "partial",
   "theorems": [
    "C33_insert_child",
    "C33_insert_over_partial",
    "C33_insert_over_refuted",
    "C33_erase_end",
    "C33_insert_over_leak_refuted"
   ],
   "note": "Exceptions. insert_child and erase: state unchanged. insert_over at end(): what the call built leaks, for every tree and every argument except a moved tree (`C33_insert_over_leak_refuted`)."
  },
  {
   "property": "C34",
   "status": "partial",
   "theorems": [
    "C34_insert_over_partial",
    "C34_insert_child_refuted",
    "C34_insert_child_nary_refuted",
    "C34_insert_child_always_refuted"
   ],
   "note": "Exceptions with a moved tree. insert_over at end() and moving a tree into itself: safe. insert_child: always (`C34_insert_child_always_refuted`, every tree and every non-empty moved tree) the moved-from tree keeps a pointer to released nodes, and its destructor uses them."
  },
  {
   "property": "C35",
   "status": "partial",
   "theorems": [
    "C35_history_partial",
    "C35_all_released_partial"
   ],
   "note": "Histories of calls. induction over the history with the world invariant. `_partial`: the calls refuted in C30, C33, C34, C42 are excluded by `valid`."
  },
  {
   "property": "C36",
   "status": "proved",
   "theorems": [
    "C36_queries_binary",
    "C36_queries_nary"
   ],
   "note": "Node queries. positions."
  },
  {
   "property": "C37",
   "status": "partial",
   "theorems": [
    "C37_forward_nary",
    "C37_forward_binary",
    "C37_sides_binary",
    "C37_backward_nary_partial",
    "C37_backward_binary_partial",
    "C37_backward_nary_refuted",
    "C37_backward_binary_refuted"
   ],
   "note": "Predicate navigator primitives. forward: proved. Backward `_partial`: proved if the immediate neighbour passes or there is none (for `get_last_child`: one of the last two children passes, or there are fewer than two); otherwise an endless loop (`_refuted`, for every fuel)."
  },
  {
   "property": "C38",
   "status": "proved",
   "theorems": [
    "C38_literals",
    "C38_literal_children"
   ],
   "note": "Literals: size, arity, levels, indexes. induction on the literal, list of its nodes."
  },
  {
   "property": "C39",
   "status": "proved",
   "theorems": [
    "C39_iterator_equality"
   ],
   "note": "Iterator equality. for iterators over (views of) trees in a consistent world; end iterators of two empty trees are equal."
  },
  {
   "property": "C40",
   "status": "proved",
   "theorems": [
    "C40_search_nary",
    "C40_search_binary",
    "C40_search_empty",
    "C40_leftmost_unique",
    "C40_result_nary",
    "C40_result_binary",
    "C40_failed_nary",
    "C40_failed_binary",
    "C40_never_searched"
   ],
   "note": "Patterns of `one` and `cpt`: `search`, `assign_result`, `assign_mark`. `search_node` by induction on the pattern with the iterator's remaining siblings as a list; leftmost choice suffices; result by induction on the matched tree. Derived from C44."
  },
  {
   "property": "C41",
   "status": "partial",
   "theorems": [
    "C41_returned_iterator_refuted",
    "C41_returned_iterator_binary_partial",
    "C41_returned_iterator_nary_partial",
    "C41_siblings_nary_partial",
    "C41_siblings_binary_partial",
    "C41_leaves_nary_partial",
    "C41_leaves_binary_partial",
    "C41_leaves_nary_refuted",
    "C41_leaves_binary_refuted",
    "C41_root_preorder_binary_refuted",
    "C41_root_preorder_nary_refuted",
    "C41_root_null_binary_refuted",
    "C41_root_null_nary_refuted",
    "C41_empty_refuted"
   ],
   "note": "The iterator returned by insert_over. `_partial`: nodes other than the root, policies pre-order, post-order, in-order and breadth-first; siblings (every child of every node); leaves, if the replaced leaf is a last child: then the loop visits the root of what was inserted (not its leaves, if it has children) and the leaves after it. Missing because false, each proved for every tree and every argument: at the root of a non-empty tree the returned iterator's navigator keeps the released root; pre-order: it never ends (after n increments it is at node n modulo the size); post-order, in-order, breadth-first: it visits the rest, then denotes no element but differs from end(), so the loop dereferences null; in an empty tree it denotes no element. With the policy leaves, a leaf that has a next sibling: `++` reads the released node."
  },
  {
   "property": "C42",
   "status": "partial",
   "theorems": [
    "C42_view_binary",
    "C42_view_nary_partial",
    "C42_view_nary_refuted"
   ],
   "note": "Copying views. binary: right. n-ary: right if the viewed node is the root or a last child; otherwise the following siblings are copied and leaked (`_refuted`, universal)."
  },
  {
   "property": "C43",
   "status": "partial",
   "theorems": [
    "C43_pruned_nary",
    "C43_pruned_binary",
    "C43_preorder_nary_partial",
    "C43_preorder_binary_partial",
    "C43_preorder_refuted",
    "C43_preorder_exact_nary",
    "C43_preorder_exact_binary",
    "C43_preorder_prefix_nary",
    "C43_preorder_prefix_binary"
   ],
   "note": "Iteration with a predicate navigator. post-order, breadth-first and leaves, and in-order for binary trees: the pruned tree. Pre-order `_partial`: right if the last child of every node passes; else it may end early (`_refuted`). C43_preorder_exact_* gives what pre-order visits for every tree and every predicate (EarlySpec.v `met`), and C43_preorder_prefix_* that it is always the beginning of the pre-order of the cut tree."
  },
  {
   "property": "C44",
   "status": "proved",
   "theorems": [
    "C44_search_nary",
    "C44_search_binary",
    "C44_search_empty",
    "C44_best_unique",
    "C44_result_nary",
    "C44_result_binary",
    "C44_failed_nary",
    "C44_failed_binary"
   ],
   "note": "Patterns with `opt` (with children). as C40, with the specification `OptSpec.v`."
  },
  {
   "property": "C45",
   "status": "partial",
   "theorems": [
    "C45_search_ends_nary_partial",
    "C45_search_ends_binary_partial",
    "C45_value_nary_refuted",
    "C45_value_binary_refuted",
    "C45_stale_refuted",
    "C45_false_positive_refuted"
   ],
   "note": "Patterns with childless `opt`. `_partial`: the search ends and touches only nodes of the tree. `_refuted`: value ignored, stale nodes reported, false positives."
  },
  {
   "property": "C46",
   "status": "proved",
   "theorems": [
    "C46_together_nary",
    "C46_together_binary",
    "C46_sides_binary",
    "C46_equal"
   ],
   "note": "`multiple_node_pointer` in `Gen.v`; paths in `PathSpec.v`. by induction over paths every step of one component is `node_after`; the same shape gives the same path."
  },
  {
   "property": "C47",
   "status": "partial",
   "theorems": [
    "C47_generates_nary",
    "C47_generates_binary",
    "C47_pairing_refuted"
   ],
   "note": "`generative_navigator` and breadth-first over it in `Gen.v`, n-ary and binary. Invariant over the queue: what is generated, completed by what is pending, is the pruned tree (`GenInv.v`), refined to the heap (`GenRun.v`), for any stateful predicate that may also put trees in. `C47_pairing_refuted` (PropGenStep.v), for every node with two children that pass: get_last_child followed by get_first_child pairs the first child with the node generated for the last."
  },
  {
   "property": "C48",
   "status": "proved",
   "theorems": [
    "C48_search_sound_nary",
    "C48_search_sound_binary",
    "C48_search_nary",
    "C48_search_binary",
    "C48_path_nary",
    "C48_search_empty"
   ],
   "note": "`Star.v` models multi_matcher.hpp with its callbacks; `StarSpec.v` says what a match is. `StarWalk.v`: what the iterators of a star enumerate under any `subtree_cut`; `StarFacts.v`: induction over the pattern, with the invariant that leftover cuts do no harm."
  },
  {
   "property": "C49",
   "status": "partial",
   "theorems": [
    "C49_missed_refuted",
    "C49_stale_refuted"
   ],
   "note": "`_refuted`: `star()(a, b)` misses a match in r(a(a, b)) because backtracking jumps over it; `subtree_cut` is never reset, so a later search of a changed tree misses a match. What is true (single-child and disjoint stars, unchanged tree) is C48."
  },
  {
   "property": "C50",
   "status": "proved",
   "theorems": [
    "C50_result_nary",
    "C50_result_binary",
    "C50_result_unique",
    "C50_never_searched"
   ],
   "note": "`StarResultSpec.v` says what is reported for a match. `StarTarget.v`: `check_target` as the predicate of a generation; `StarResult.v`: induction over the pattern, generic in the node type; `StarKinds.v`: n-ary and binary; `StarMarks.v`: captures; `StarUnique.v`: one result per match."
  },
  {
   "property": "C51",
   "status": "partial",
   "theorems": [
    "C51_duplicates_refuted",
    "C51_null_refuted"
   ],
   "note": "`_refuted`: a reluctant star with two children below the same node reports that node twice (the last cloned node of a path is not put into `cloned_nodes`); a child that took nothing (`opt`) makes it read a null pointer. What is true (one child) is C50."
  },
  {
   "property": "C52",
   "status": "proved",
   "theorems": [
    "C52_alone_nary",
    "C52_alone_binary",
    "C52_empty"
   ],
   "note": "`StarAlone.v`: induction over the number of steps of `keep_assigning_children`, generic in the node type; `StarAloneUser.v`: the search, and both node types."
  },
  {
   "property": "C53",
   "status": "partial",
   "theorems": [
    "C53_hang_nary_refuted",
    "C53_hang_binary_refuted",
    "C53_root_refuted"
   ],
   "note": "`_refuted`, for every tree: with any node below the root that the test rejects the call never ends (every number of steps is used up); with a test that rejects everything the root is matched and reported all the same. What is true is C52."
  },
  {
   "property": "C54",
   "status": "proved",
   "theorems": [
    "C54_nary",
    "C54_binary",
    "C54_values",
    "C54_code_nary",
    "C54_code_binary",
    "C54_distinct_nary",
    "C54_distinct_binary"
   ],
   "note": "`Print.v` models `print_node` with the limit shared by all the recursive calls; the text of a value is a parameter (`show`), addresses are not printed (`address_digits` = 0, the default). `PrintSpec.v` gives the text (`item_text`) of an expression with dots and says which expressions with dots belong to a literal (`shown`, `printed`). Proved by induction on the fuel, for the node and for the loop over its siblings together; the code part is composed with C24."
  },
  {
   "property": "C55",
   "status": "partial",
   "theorems": [
    "C55_quotes_refuted"
   ],
   "note": "`_refuted`, for all strings and every indentation: values are put between quotes without escaping, so a tree with two children looks like one with a single child. What is true (numbers, chars, \u2026) is C54_distinct_*."
  },
  {
   "property": "C56",
   "status": "proved",
   "theorems": [
    "C56_stay_binary",
    "C56_stay_nary",
    "C56_siblings_binary",
    "C56_siblings_nary"
   ],
   "note": "The four policies keep no nodes besides the current one and the root, so the theorem compares the iterator made in the old heap with one made in the new heap and uses C03/C11/C14 there. The later state is any consistent world whose tree has the same root and contains the node; a conclusion about a tree whose root was replaced is not claimed (the iterator keeps the old root)."
  },
  {
   "property": "C57",
   "status": "partial",
   "theorems": [
    "C57_breadth_first_nary_refuted",
    "C57_breadth_first_binary_refuted",
    "C57_stay_nary_partial",
    "C57_stay_binary_partial"
   ],
   "note": "`_partial`: if the nodes that wait in the queue at that node (`waiting`, LeafSpec.v: the next sibling, the first nodes of the later groups of siblings on the level, the first children of the nodes visited) are the same before and after, the loop visits the rest of the present order. `_refuted`, universally: whenever the next node in breadth-first order was released, `++` reads it (it is in the queue of the iterator), although the iterator's own node is untouched."
  },
  {
   "property": "C58",
   "status": "proved",
   "theorems": [
    "C58_convert",
    "C58_convert_enough",
    "C58_trees_unchanged",
    "C58_enough"
   ],
   "note": "`Fail.v` repeats the node constructors with a number of nodes that can still be created; the failure of the allocator and of the constructor of the value (`late`) are both covered. `FailFacts.v` proves that they agree with the constructors of the model when nothing fails, touch no old node and create exactly one node per step. The conversions from a binary tree are in `ConvFail.v`/`PropConvFail.v` (`C58_convert`, `C58_convert_enough`)."
  },
  {
   "property": "C59",
   "status": "partial",
   "theorems": [
    "C59_convert_refuted",
    "C59_leak_refuted",
    "C59_first_partial"
   ],
   "note": "`_refuted`, universally: whatever the call and the moment, all the nodes created so far stay allocated and belong to no tree (allocate() guards nothing and children are held by raw pointers). `_partial`: nothing is lost if the very first allocation fails. The same for the conversions from a binary tree (`C59_convert_refuted`)."
  },
  {
   "property": "C60",
   "status": "proved",
   "theorems": [
    "C60_name_nary",
    "C60_name_binary",
    "C60_unknown"
   ],
   "note": "The compile-time computations on names in `Names.v` (`matcher_traits`, `captures_t`, `index_of_capture`, the static assertions), proved to agree with the positions of the marks of C50."
  },
  {
   "property": "C61",
   "status": "partial",
   "theorems": [
    "C61_siblings_refuted",
    "C61_nested_refuted",
    "C61_enforced_partial"
   ],
   "note": "`_refuted`, universally: siblings with the same name are never compared, and the swapped specialization of `matcher_traits` makes a capture without a next sibling accept its own name inside. `_partial`: patterns with different names compile, and a repetition inside a capture with a next sibling is rejected."
  },
  {
   "property": "C62",
   "status": "partial",
   "theorems": [
    "C62_stay_nary",
    "C62_stay_binary",
    "C62_sibling_gone_nary_refuted",
    "C62_sibling_gone_binary_refuted"
   ],
   "note": "`C62_stay_*`: if the nodes on the way to the leaf that have a next sibling (`trail`, LeafSpec.v) are the same before and after, the loop continues with the leaves of the new tree (so siblings may be added or removed as long as none becomes or stops being a last child on that way). `_refuted`, universally: if the nearest such node has no next sibling any more, `++` dereferences null although the leaf is untouched."
  },
  {
   "property": "C63",
   "status": "partial",
   "theorems": [
    "C63_made_at_nary_refuted",
    "C63_made_at_binary_refuted",
    "C63_last_leaf_partial"
   ],
   "note": "`_refuted`, universally, for every node of every tree: the loop from such an iterator visits the node (leaf or not) and ends. `C63_last_leaf_partial`: the last leaf is the only one where that is right."
  },
  {
   "property": "C64",
   "status": "partial",
   "theorems": [
    "C64_build_partial",
    "C64_size_refuted",
    "C64_unequal_refuted",
    "C64_wrong_equal_refuted"
   ],
   "note": "False in general. The static_assert counts children that are not n(), so n(1)(n(2), n(), n(3)) compiles; the constructor and == look at the first two arguments only, size() at all of them. Proved for every literal: the first two arguments of each node are built, properly linked, and size() is the number of values written (with at most two arguments everywhere this is C16). Refuted for every literal with a further argument that is not n(): size() exceeds the number of nodes, and the tree built differs from the literal under ==; and for all values v(a,x) == n(v)(n(a), n(), n(b))."
  },
  {
   "property": "C65",
   "status": "proved",
   "theorems": [
    "C65_moves_defined",
    "C65_moves_nary",
    "C65_moves_binary",
    "C65_other_node_nary",
    "C65_other_node_binary"
   ],
   "note": "The relative is given by the inductive specification leads (Moves.v), defined for every node and move (C65_moves_defined). The iterator obtained is the one the library makes for that node (iterator_at), so C07-C11 apply to it; for the two-way policies the rest of the sequence is stated directly. A move of an end iterator (null node) is not covered: it dereferences a null pointer. Leaves iterators are moved to the right node, but see C63 for what they visit next."
  },
  {
   "property": "C66",
   "status": "proved",
   "theorems": [
    "C66_search_nary",
    "C66_search_binary"
   ],
   "note": "`Values.v`: the value matchers and `match_value`, and an inductive specification `fits_tree` in terms of the values given by the user. Induction on the pattern, from C44. Values of the pattern and of the tree have the same type; `alternative_match` cannot be used (no `operator==`)."
  },
  {
   "property": "C67",
   "status": "partial",
   "theorems": [
    "C67_nary_partial",
    "C67_binary_partial",
    "C67_same_text_nary",
    "C67_same_text_binary",
    "C67_exact_nary",
    "C67_exact_binary",
    "C67_hex_refuted"
   ],
   "note": "`PrintAt.v`: `print_node` with the formatting of the stream (base, fill) threaded through. The text is that of C54 for the tree whose values carry their addresses (`AddressSpec.v`). Partial: `std::hex` stays set on the stream, so every value but the root's is printed in hexadecimal: with values whose texts contain no `)` the text of a tree printed in full is the expected one exactly if the values below the root look the same either way (`C67_exact_*`), and wrong for every other tree (`C67_hex_refuted`)."
  },
  {
   "property": "C68",
   "status": "partial",
   "theorems": [
    "C68_nary_partial",
    "C68_binary_partial",
    "C68_hex_refuted"
   ],
   "note": "Exact law: the formatting is that of before if and only if no address is printed (no digits, nothing shown) or it was hexadecimal with fill '0' already. Refuted for every tree otherwise."
  },
  {
   "property": "C69",
   "status": "proved",
   "theorems": [
    "C69_nary",
    "C69_binary",
    "C69_policy_nary",
    "C69_policy_binary",
    "C69_node_nary",
    "C69_node_binary"
   ],
   "note": "`Filter.v`: filtered iterators as objects (iterator and optional predicate). Lists: the i-th accepted element splits the sequence of the policy; each loop of `++`/`--` is followed through the rejected elements (induction), from the step lemmas of C01-C08."
  },
  {
   "property": "C70",
   "status": "partial",
   "theorems": [
    "C70_nary_partial",
    "C70_binary_partial",
    "C70_moves_nary_refuted",
    "C70_moves_binary_refuted"
   ],
   "note": "Partial: the moves are inherited and do not look at the predicate, so the iterator stands at a rejected element whenever the relative is rejected (`C70_moves_*_refuted`, for every tree); the next ++ leads to an accepted one."
  },
  {
   "property": "C71",
   "status": "partial",
   "theorems": [
    "C71_nary_partial",
    "C71_predicate_nary_refuted",
    "C71_none_nary_refuted",
    "C71_binary_partial",
    "C71_predicate_binary_refuted",
    "C71_none_binary_refuted"
   ],
   "note": "Partial: `operator=` copies the iterator but not the predicate, so the next elements are those accepted by the old predicate (`C71_predicate_*_refuted`, for every tree); assigning to a default-constructed one and moving it reads an empty optional (`C71_none_*_refuted`)."
  },
  {
   "property": "C72",
   "status": "proved",
   "theorems": [
    "C72_nary",
    "C72_binary"
   ],
   "note": "By induction on the path to the root, and by the breadth-first steps of C03 from the root. The index is unbounded (a natural number)."
  },
  {
   "property": "C73",
   "status": "proved",
   "theorems": [
    "C73_nary",
    "C73_binary"
   ],
   "note": "From C36. N-ary: nodes with fewer than 2^64 children."
  },
  {
   "property": "C74",
   "status": "partial",
   "theorems": [
    "C74_partial",
    "C74_move_assign_refuted",
    "C74_swap_refuted",
    "C74_insert_move_refuted",
    "C74_copy_policy_refuted"
   ],
   "note": "Proved for every history of calls that do not mix allocators (`unmixed`): by an invariant over histories, from where the nodes of each tree come from after a call (AllocFacts.v). False for the four calls that mix them: move assignment to a non-empty tree releases its nodes to the other tree's allocator; after a swap, the insertion of a moved tree, or the copy of a tree with another policy, destroying the tree does so; each refuted for every state and every pair of unequal allocators."
  },
  {
   "property": "C75",
   "status": "partial",
   "theorems": [
    "C75_partial",
    "C75_refuted"
   ],
   "note": "get_allocator() is the default-constructed allocator in every history, so the property holds exactly of trees whose allocator is the default one; refuted for every tree constructed with another one."
  },
  {
   "property": "C76",
   "status": "partial",
   "theorems": [
    "C76_readers_partial",
    "C76_no_race_partial",
    "C76_warm_partial",
    "C76_alone",
    "C76_race_refuted"
   ],
   "note": "For every interleaving of the accesses to the two mutable members: an invariant (the memory holds 0 or the right value, and each thread's remaining program gives the right answers whatever it reads) shows that contents never change, every thread goes on until it has made all its calls, after at most 12 accesses per call, with the right answers; without data race if the sizes and arities of the trees read are stored, which calling size() and arity() once before ensures. A thread alone behaves as the functions of Tree.v (C76_alone). Not without data race in general: refuted for every tree whose size (or arity) is not stored and all threads that begin with size() (arity()). Missing: interleaving is sequentially consistent, which C++ does not promise in case of a race."
  },
  {
   "property": "C77",
   "status": "partial",
   "theorems": [
    "C77_new",
    "C77_new_size",
    "C77_given_size_refuted",
    "C77_assign",
    "C77_history",
    "C77_all_released",
    "C77_sizes"
   ],
   "note": "Pointers are owners in the same table as trees; ownership (`consistent`) is an invariant of all valid calls of both, so nothing is shared or lost along any history; sizes are right if those given with a pointer are. A size given with the pointer is believed whatever it is: refuted for every wrong one."
  },
  {
   "property": "C78",
   "status": "partial",
   "theorems": [
    "C78_root",
    "C78_nary",
    "C78_binary",
    "C78_inner_nary_refuted",
    "C78_inner_binary_refuted"
   ],
   "note": "Proved for the root of every whole tree of either kind (same children, same values, old root alone with its value, nothing else written). Refuted for every node that is not a root: parent and siblings still refer to the old node, which is cleared, so no assignment of contents to the trees is consistent any more."
  },
  {
   "property": "C79",
   "status": "partial",
   "theorems": [
    "C79_partial",
    "C79_new_refuted",
    "C79_assign_refuted",
    "C79_moved_refuted"
   ],
   "note": "Proved for every history of calls that do not mix allocators (`qunmixed`). False otherwise, each for every state: a tree made from a pointer uses a default-constructed allocator whatever the pointer's deleter has (`C79_new_refuted`); assignment keeps the tree's allocator (`C79_assign_refuted`); the children of a moved node stay with the allocator that made them (`C79_moved_refuted`)."
  },
  {
   "property": "C80",
   "status": "partial",
   "theorems": [
    "C80_increment_partial",
    "C80_decrement_partial",
    "C80_other_policies_partial",
    "C80_leaves_back_partial",
    "C80_breadth_first_begin_partial",
    "C80_breadth_first_next_nary_refuted",
    "C80_breadth_first_next_binary_refuted",
    "C80_breadth_first_previous_nary_refuted",
    "C80_breadth_first_previous_binary_refuted",
    "C80_leaves_next_nary_refuted",
    "C80_leaves_next_binary_refuted",
    "C80_leaves_begin_nary_refuted",
    "C80_leaves_begin_binary_refuted"
   ],
   "note": "Proved: which calls throw depends only on the memory left, a throwing call leaves the iterator at its node (`C80_increment_partial`, `C80_decrement_partial`), only breadth_first and leaves can throw, and `--` of leaves and `++` at the end of breadth_first can be repeated. False of the rest, each for every tree: breadth-first `++` and `--` and leaves `++` have already changed the queue or stack when they throw, so that repeating them skips whole subtrees (`C80_breadth_first_next_*`, `C80_breadth_first_previous_*`, `C80_leaves_next_*`), and begin() of leaves, repeated, visits leaves twice (`C80_leaves_begin_*`)."
  },
  {
   "property": "C81",
   "status": "partial",
   "theorems": [
    "C81_other_policies",
    "C81_insert_child_refuted",
    "C81_insert_child_move_refuted",
    "C81_insert_over_partial",
    "C81_insert_over_leak_refuted",
    "C81_insert_over_move"
   ],
   "note": "Proved: the other policies never need the memory (`C81_other_policies`), insert_over behaves as usual whenever one more node fits in the queue or the new subtree is a single node (`C81_insert_over_partial`), and a moved tree is never lost by it (`C81_insert_over_move`). False of the rest, for every tree, position and argument: insert_child_* and emplace_* throw after the child was linked (`C81_insert_child_refuted`), with a moved tree both trees then own its nodes and destroying both uses released memory (`C81_insert_child_move_refuted`), and insert_over leaks the nodes it made (`C81_insert_over_leak_refuted`). Failing copies of the position itself (a deque) are not modelled."
  },
  {
   "property": "C82",
   "status": "partial",
   "theorems": [
    "C82_first_nary",
    "C82_next_nary",
    "C82_last_partial",
    "C82_last_hang_refuted",
    "C82_prev_hang_refuted",
    "C82_prev_order_refuted",
    "C82_prev_none_nary",
    "C82_root",
    "C82_sides_binary",
    "C82_first_binary",
    "C82_next_binary",
    "C82_prev_binary_partial"
   ],
   "note": "Proved for all steps forward (`C82_first_*`, `C82_next_*`), to the left and right child (`C82_sides_binary`), from the root (`C82_root`), and backwards as far as the nearest siblings pass the test (`C82_last_partial`, `C82_prev_none_nary`, `C82_prev_binary_partial`). False backwards, for every tree: the loop over previous siblings restarts from the same node and never ends once the nearest one fails (`C82_last_hang_refuted`, `C82_prev_hang_refuted`: out of fuel for every fuel), and in n-ary trees the copy of the previous sibling is appended behind the copy of the node itself (`C82_prev_order_refuted`)."
  },
  {
   "property": "C83",
   "status": "proved",
   "theorems": [
    "C83_nary",
    "C83_binary"
   ],
   "note": "Model ResultFail.v: `result` with unique_ptr_alloc giving back what it holds when an exception passes. Proved by the same induction as C44 (ResultFailFacts.v); patterns with star are not covered."
  },
  {
   "property": "C84",
   "status": "partial",
   "theorems": [
    "C84_leak_nary_refuted",
    "C84_leak_binary_refuted"
   ],
   "note": "False for every tree, pattern and point of failure (`C84_leak_nary_refuted`, `C84_leak_binary_refuted`): allocate() does not give back the memory when the constructor throws. That the trees are unchanged also then is in C83."
  },
  {
   "property": "C85",
   "status": "proved",
   "theorems": [
    "C85_nary",
    "C85_binary"
   ],
   "note": "Model: `StarFail.v`. Proved by going through the ordinary construction call by call (`StarFailFacts.v`); that the ordinary call succeeds is C50."
  },
  {
   "property": "C86",
   "status": "partial",
   "theorems": [
    "C86_leak_nary_refuted",
    "C86_leak_binary_refuted",
    "C86_eager_nary_partial",
    "C86_eager_binary_partial"
   ],
   "note": "Without reluctant stars proved in full (`C86_eager_nary_partial`, `C86_eager_binary_partial`): with too few nodes the call throws and all is as before; if it is the constructor of a value that throws, one node is lost (as in C84). False for reluctant stars: whenever the only child of one matches deeper than the children of the root there is a point of failure at which the nodes built for the child are lost, in every tree and for every child pattern (`C86_leak_nary_refuted`, `C86_leak_binary_refuted`), because `child_head.second.release()` comes before the allocation in allocate_assign_parent."
  },
  {
   "property": "C87",
   "status": "partial",
   "theorems": [
    "C87_generates_partial",
    "C87_early_refuted",
    "C87_lost_refuted",
    "C87_generates_binary_partial",
    "C87_early_binary_refuted",
    "C87_lost_binary_refuted"
   ],
   "note": "Pre-order over the generative navigator in `GenPre.v`; `PropGenPre.v` for n-ary and `PropGenPreBin.v` for binary trees. Proved when the last child of every node passes the predicate (`C87_generates_partial`, `C87_generates_binary_partial`, by induction on the tree, from the single steps of C82). False otherwise: `is_last_child` is not overridden and asks the nodes, not the predicate, so a node whose later siblings all fail is not seen as a last child, get_next_sibling answers null and the traversal ends, wherever in the tree it stands; the rest of the tree is never generated (`C87_early_refuted`, `C87_early_binary_refuted`, for every tree and position; the loop then ends with the copy as it is, `C87_lost_refuted`, `C87_lost_binary_refuted`)."
  },
  {
   "property": "C88",
   "status": "proved",
   "theorems": [
    "C88_search",
    "C88_result_nary",
    "C88_result_binary",
    "C88_plain"
   ],
   "note": "Searching with null (`pattern::search` calls search_node(null, ...)) in both pattern models: `PropStarEmpty.v` (`C88_search`, `C88_result_nary`, `C88_result_binary` for one/opt/star/capture patterns, `C88_plain` for the patterns without star, where all fail but an opt whose children are opts). Proved by induction on the pattern."
  }
 ]
}