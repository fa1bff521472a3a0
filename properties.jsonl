{"id": "C01", "title": "Pre-order iteration is complete and exact", "statement": "Iterating any tree (or view) from begin(pre_order()) until the iterator equals end(pre_order()) terminates and visits every node exactly once, each node before its descendants and each subtree of an earlier child before that of a later child; no null or dangling node is dereferenced.", "quantifier": "every binary or n-ary tree shape and every value", "why_tests_cant": "Tests enumerate a handful of fixed trees; shapes, depths and fan-outs are unbounded and the traversal code navigates by parent/sibling links whose case split (first/last/only child, unary chains, missing left child) no finite set of shapes exhausts.", "anchors": ["include/TreeDS/policy/pre_order.hpp:pre_order_impl", "include/TreeDS/node/navigator/navigator_base.hpp", "include/TreeDS/tree_iterator.hpp:tree_iterator::operator++"]}
{"id": "C02", "title": "Post-order iteration is complete and exact", "statement": "Same as C01 for post_order(): every node exactly once, each node after all its descendants, siblings' subtrees left to right.", "quantifier": "every binary or n-ary tree", "why_tests_cant": "Tests enumerate a handful of fixed trees; shapes, depths and fan-outs are unbounded and the traversal code navigates by parent/sibling links whose case split (first/last/only child, unary chains, missing left child) no finite set of shapes exhausts.", "anchors": ["include/TreeDS/policy/post_order.hpp:post_order_impl", "include/TreeDS/node/navigator/navigator_base.hpp:get_highest_leaf"]}
{"id": "C03", "title": "In-order iteration is complete and exact (binary)", "statement": "Same as C01 for in_order() on a binary tree: left subtree, node, right subtree, including nodes with only a right child.", "quantifier": "every binary tree", "why_tests_cant": "Tests enumerate a handful of fixed trees; shapes, depths and fan-outs are unbounded and the traversal code navigates by parent/sibling links whose case split (first/last/only child, unary chains, missing left child) no finite set of shapes exhausts.", "anchors": ["include/TreeDS/policy/in_order.hpp:in_order_impl"]}
{"id": "C04", "title": "Breadth-first iteration is complete and exact", "statement": "Same as C01 for breadth_first(): nodes are visited level by level from the root, each level left to right, every node exactly once.", "quantifier": "every binary or n-ary tree", "why_tests_cant": "Tests enumerate a handful of fixed trees; shapes, depths and fan-outs are unbounded and the traversal code navigates by parent/sibling links whose case split (first/last/only child, unary chains, missing left child) no finite set of shapes exhausts.", "anchors": ["include/TreeDS/policy/breadth_first.hpp:breadth_first_impl"]}
{"id": "C05", "title": "Leaves iteration enumerates the leaves", "statement": "Iterating forward with leaves() from begin to end visits exactly the childless nodes, left to right, once each.", "quantifier": "every binary or n-ary tree", "why_tests_cant": "Tests enumerate a handful of fixed trees; shapes, depths and fan-outs are unbounded and the traversal code navigates by parent/sibling links whose case split (first/last/only child, unary chains, missing left child) no finite set of shapes exhausts.", "anchors": ["include/TreeDS/policy/leaves.hpp:leaves_impl", "include/TreeDS/node/navigator/navigator_base.hpp:get_other_branch"]}
{"id": "C06", "title": "Siblings policy enumerates a sibling list; fixed policy does not move", "statement": "Iterating with siblings() from a node visits the node and then each following sibling in order and ends; going backwards visits the preceding ones. An iterator with the fixed() policy placed on a node has no successor and no predecessor.", "quantifier": "every tree and every node in it", "why_tests_cant": "Tests enumerate a handful of fixed trees; shapes, depths and fan-outs are unbounded and the traversal code navigates by parent/sibling links whose case split (first/last/only child, unary chains, missing left child) no finite set of shapes exhausts.", "anchors": ["include/TreeDS/policy/siblings.hpp:siblings_impl", "include/TreeDS/policy/fixed.hpp:fixed_impl"]}
{"id": "C07", "title": "Reverse iteration is the exact reverse", "statement": "For each of pre_order, post_order, in_order, breadth_first and siblings: starting at end() and applying -- until the first element is reached visits exactly the forward sequence reversed.", "quantifier": "every tree, each bidirectional policy", "why_tests_cant": "Tests enumerate a handful of fixed trees; shapes, depths and fan-outs are unbounded and the traversal code navigates by parent/sibling links whose case split (first/last/only child, unary chains, missing left child) no finite set of shapes exhausts.", "anchors": ["include/TreeDS/policy/pre_order.hpp:decrement", "include/TreeDS/policy/post_order.hpp:decrement", "include/TreeDS/policy/in_order.hpp:decrement", "include/TreeDS/policy/breadth_first.hpp:decrement"]}
{"id": "C08", "title": "++ and -- are mutually inverse at every position", "statement": "At every non-last position ++ then -- gives back an iterator equal to the original (and with the same future behaviour), and at every non-first position -- then ++ does; from the last element ++ gives end() and --end() gives the last element.", "quantifier": "every tree, every position, every finite interleaving of ++ and --", "why_tests_cant": "The breadth-first policy carries a hidden queue in the iterator; only an invariant over all interleavings of ++ and -- settles that it never desynchronises.", "anchors": ["include/TreeDS/policy/breadth_first.hpp", "include/TreeDS/tree_iterator.hpp:operator--"]}
{"id": "C09", "title": "A breadth-first iterator created at an arbitrary node behaves as one that walked there", "statement": "Creating a breadth_first iterator at any node (other_policy / conversion from another policy) yields the same subsequent forward and backward sequences as reaching that node by ++ from begin.", "quantifier": "every tree, every node", "why_tests_cant": "The queue is reconstructed from links rather than by walking; the reconstruction loop has cases per level and per gap in levels.", "anchors": ["include/TreeDS/policy/breadth_first.hpp:manage_initial_status", "include/TreeDS/tree_iterator.hpp:other_policy"]}
{"id": "C10", "title": "Changing the policy continues in the new order", "statement": "it.other_policy(P) points at the same element; iterating it forward visits exactly the part of P's order of the tree from that element on.", "quantifier": "every tree, every node, every pair of policies (pre, post, in, breadth-first, siblings)", "why_tests_cant": "Tests enumerate a handful of fixed trees; shapes, depths and fan-outs are unbounded and the traversal code navigates by parent/sibling links whose case split (first/last/only child, unary chains, missing left child) no finite set of shapes exhausts.", "anchors": ["include/TreeDS/tree_iterator.hpp:other_policy", "include/TreeDS/policy/policy_base.hpp"]}
{"id": "C11", "title": "begin equals end exactly for empty trees; incrementing end rewinds", "statement": "begin(P)==end(P) iff the tree is empty (P among pre, post, in, breadth-first); ++end() equals begin() and --end() is the last element; --end() and ++end() on an empty tree leave end().", "quantifier": "every tree, each policy", "why_tests_cant": "Tests enumerate a handful of fixed trees; shapes, depths and fan-outs are unbounded and the traversal code navigates by parent/sibling links whose case split (first/last/only child, unary chains, missing left child) no finite set of shapes exhausts.", "anchors": ["include/TreeDS/tree_iterator.hpp:operator++", "include/TreeDS/tree_iterator.hpp:operator--", "include/TreeDS/tree_base.hpp:begin"]}
{"id": "C12", "title": "Views are confined to their subtree", "statement": "A tree_view made from an iterator to node n iterates, in each policy, exactly over n's subtree in that order and never reaches an ancestor, sibling or cousin of n, although the links to them exist.", "quantifier": "every tree, every node as view root, each policy", "why_tests_cant": "Confinement depends on every navigation primitive stopping at the navigator's root; tests use one or two views.", "anchors": ["include/TreeDS/viewer/tree_view.hpp", "include/TreeDS/node/navigator/navigator_base.hpp:is_root"]}
{"id": "C13", "title": "Row and leaf navigation primitives", "statement": "The next/previous branch query returns the nearest node of the same row (same depth) strictly to the right/left within the root's subtree, or nothing if there is none; row extremum returns the leftmost/rightmost node of a row; highest leaf follows extremal children; deepest extremum child returns the extremal node of the deepest row.", "quantifier": "every tree and node", "why_tests_cant": "Tests enumerate a handful of fixed trees; shapes, depths and fan-outs are unbounded and the traversal code navigates by parent/sibling links whose case split (first/last/only child, unary chains, missing left child) no finite set of shapes exhausts.", "anchors": ["include/TreeDS/node/navigator/navigator_base.hpp:get_other_branch", "include/TreeDS/node/navigator/navigator_base.hpp:get_row_extremum", "include/TreeDS/node/navigator/navigator_base.hpp:get_deepest_extremum_child"]}
{"id": "C14", "title": "Filtered iteration equals filtering the iteration", "statement": "Iterating with a filter iterator visits exactly the elements of the underlying order that satisfy the predicate, in the same order, and ends.", "quantifier": "every tree, every predicate, each policy", "why_tests_cant": "Tests enumerate a handful of fixed trees; shapes, depths and fan-outs are unbounded and the traversal code navigates by parent/sibling links whose case split (first/last/only child, unary chains, missing left child) no finite set of shapes exhausts.", "anchors": ["include/TreeDS/tree_iterator_filter.hpp"]}
{"id": "C15", "title": "Leaves iteration is consistent under mixed ++ and --", "statement": "After any interleaving of ++ and -- the leaves iterator denotes the leaf at the corresponding position of the leaves sequence.", "quantifier": "every tree, every interleaving", "why_tests_cant": "Depends on a hidden stack carried by the iterator.", "anchors": ["include/TreeDS/policy/leaves.hpp"]}
{"id": "C16", "title": "Binary tree construction from a structure literal", "statement": "binary_tree(n(v)(a,b)) builds a tree whose shape and values are exactly those of the literal, with n() in a slot meaning an absent child, and with parent links consistent.", "quantifier": "every literal with at most two slots per node", "why_tests_cant": "Tests enumerate a handful of fixed trees; shapes, depths and fan-outs are unbounded and the traversal code navigates by parent/sibling links whose case split (first/last/only child, unary chains, missing left child) no finite set of shapes exhausts.", "anchors": ["include/TreeDS/node/binary_node.hpp:binary_node(const struct_node&)", "include/TreeDS/node/struct_node.hpp"]}
{"id": "C17", "title": "N-ary tree construction from a structure literal", "statement": "nary_tree(n(v)(a,b,...)) builds a tree whose shape and values are exactly those of the literal, with parent, previous/next sibling, first/last child and index information coherent.", "quantifier": "every literal, any fan-out", "why_tests_cant": "Tests enumerate a handful of fixed trees; shapes, depths and fan-outs are unbounded and the traversal code navigates by parent/sibling links whose case split (first/last/only child, unary chains, missing left child) no finite set of shapes exhausts.", "anchors": ["include/TreeDS/node/nary_node.hpp:nary_node(const struct_node&)"]}
{"id": "C18", "title": "Copy construction and copy assignment are deep", "statement": "After copying, the target equals the source, shares no node with it, the source and every other tree are unchanged, the target's old nodes are all released, and self-assignment is harmless.", "quantifier": "every pair of trees incl. aliased ones", "why_tests_cant": "Sharing/leak freedom is a statement about all heaps.", "anchors": ["include/TreeDS/tree.hpp:operator=", "include/TreeDS/node/binary_node.hpp", "include/TreeDS/node/nary_node.hpp"]}
{"id": "C19", "title": "Move construction and move assignment transfer ownership", "statement": "After a move the target holds exactly the nodes (same addresses) the source held, the source is empty, the old nodes of the target are all released, no node is leaked or released twice.", "quantifier": "every pair of distinct tree objects (moving a tree onto itself leaves it empty and leaks nothing)", "why_tests_cant": "Leak and double release freedom is about all heaps.", "anchors": ["include/TreeDS/tree.hpp:tree(tree&&)", "include/TreeDS/tree.hpp:operator="]}
{"id": "C20", "title": "swap exchanges contents", "statement": "swap(a,b) exchanges the contents, size and arity of the two trees without allocating, releasing or changing a node; swapping a tree with itself changes nothing.", "quantifier": "every pair of trees", "why_tests_cant": "Tests enumerate a handful of fixed trees; shapes, depths and fan-outs are unbounded and the traversal code navigates by parent/sibling links whose case split (first/last/only child, unary chains, missing left child) no finite set of shapes exhausts.", "anchors": ["include/TreeDS/tree.hpp:swap"]}
{"id": "C21", "title": "Tree equality is structural equality", "statement": "a == b is true exactly if the two trees have the same shape and equal values at corresponding nodes; it terminates and dereferences no null; it is an equivalence relation.", "quantifier": "every pair of trees of the same kind with up-to-date size/arity", "why_tests_cant": "Tests enumerate a handful of fixed trees; shapes, depths and fan-outs are unbounded and the traversal code navigates by parent/sibling links whose case split (first/last/only child, unary chains, missing left child) no finite set of shapes exhausts.", "anchors": ["include/TreeDS/tree_base.hpp:operator==", "include/TreeDS/node/binary_node.hpp:operator==", "include/TreeDS/node/nary_node.hpp:operator=="]}
{"id": "C22", "title": "Equality of n-ary views", "statement": "Comparing a view of an n-ary subtree with a tree compares that subtree only.", "quantifier": "every n-ary tree, every node as view root", "why_tests_cant": "Tests enumerate a handful of fixed trees; shapes, depths and fan-outs are unbounded and the traversal code navigates by parent/sibling links whose case split (first/last/only child, unary chains, missing left child) no finite set of shapes exhausts.", "anchors": ["include/TreeDS/node/nary_node.hpp:operator==", "include/TreeDS/viewer/nary_tree_view.hpp"]}
{"id": "C23", "title": "Comparing n-ary with binary trees", "statement": "nary == binary is true exactly if the binary tree, read as an ordered tree (left child then right child, absent ones skipped), has the same shape and values as the n-ary tree.", "quantifier": "every n-ary tree and binary tree", "why_tests_cant": "Tests enumerate a handful of fixed trees; shapes, depths and fan-outs are unbounded and the traversal code navigates by parent/sibling links whose case split (first/last/only child, unary chains, missing left child) no finite set of shapes exhausts.", "anchors": ["include/TreeDS/node/nary_node.hpp:operator==(binary_node)", "include/TreeDS/nary_tree.hpp"]}
{"id": "C24", "title": "Comparing trees with structure literals", "statement": "tree == literal is true exactly if building a tree of that kind from the literal would give an equal tree.", "quantifier": "every tree whose size() and arity() report the right values, and every literal", "why_tests_cant": "Tests enumerate a handful of fixed trees; shapes, depths and fan-outs are unbounded and the traversal code navigates by parent/sibling links whose case split (first/last/only child, unary chains, missing left child) no finite set of shapes exhausts.", "anchors": ["include/TreeDS/node/binary_node.hpp:operator==(struct_node)", "include/TreeDS/node/nary_node.hpp:operator==(struct_node)", "include/TreeDS/tree_base.hpp"]}
{"id": "C25", "title": "N-ary tree from a binary tree", "statement": "Constructing/assigning an nary_tree from a binary_tree gives an n-ary tree with the same values where each node's children are the present children left to right; the binary tree is unchanged.", "quantifier": "every binary tree", "why_tests_cant": "Tests enumerate a handful of fixed trees; shapes, depths and fan-outs are unbounded and the traversal code navigates by parent/sibling links whose case split (first/last/only child, unary chains, missing left child) no finite set of shapes exhausts.", "anchors": ["include/TreeDS/nary_tree.hpp", "include/TreeDS/node/nary_node.hpp:nary_node(const binary_node&)"]}
{"id": "C26", "title": "size() and arity() are right on a freshly built tree", "statement": "On a tree freshly constructed, copied, moved or assigned, size() is the number of nodes and arity() the largest number of children of any node, and calling them does not change any later observation.", "quantifier": "every tree", "why_tests_cant": "Tests enumerate a handful of fixed trees; shapes, depths and fan-outs are unbounded and the traversal code navigates by parent/sibling links whose case split (first/last/only child, unary chains, missing left child) no finite set of shapes exhausts.", "anchors": ["include/TreeDS/tree_base.hpp:size", "include/TreeDS/tree_base.hpp:arity", "include/TreeDS/utility.hpp:calculate_size", "include/TreeDS/utility.hpp:calculate_arity"]}
{"id": "C27", "title": "insert_over / emplace_over replaces exactly the pointed subtree", "statement": "Inserting over a node replaces the subtree at that node by the new one, releases all nodes of the old subtree and nothing else, leaves every other node (and its address) in place with coherent links, and returns an iterator to the new node; on an empty tree it sets the root.", "quantifier": "every tree, every position, every inserted subtree", "why_tests_cant": "Tests enumerate a handful of fixed trees; shapes, depths and fan-outs are unbounded and the traversal code navigates by parent/sibling links whose case split (first/last/only child, unary chains, missing left child) no finite set of shapes exhausts.", "anchors": ["include/TreeDS/tree.hpp:insert_over", "include/TreeDS/tree.hpp:modify_subtree", "include/TreeDS/node/binary_node.hpp:replace_with", "include/TreeDS/node/nary_node.hpp:replace_with"]}
{"id": "C28", "title": "insert_child_front / insert_child_back add exactly one subtree", "statement": "They add the new subtree as first (resp. last) child of the pointed node and change nothing else; on an n-ary node always possible, on a binary node possible exactly if one child slot is free, otherwise an exception is raised and the tree is unchanged.", "quantifier": "every tree, every position, every inserted subtree", "why_tests_cant": "Tests enumerate a handful of fixed trees; shapes, depths and fan-outs are unbounded and the traversal code navigates by parent/sibling links whose case split (first/last/only child, unary chains, missing left child) no finite set of shapes exhausts.", "anchors": ["include/TreeDS/tree.hpp:add_child", "include/TreeDS/node/binary_node.hpp:prepend_child", "include/TreeDS/node/nary_node.hpp:append_child"]}
{"id": "C29", "title": "erase(position) on binary trees removes exactly that subtree", "statement": "erase of a valid position removes the node and its descendants, releases exactly these nodes, leaves the other nodes in place with coherent links, and returns an iterator to the element that followed it in post-order (end() if the tree became empty); erase(end()) of a non-empty tree throws and changes nothing; erase(first,last) erases the subtrees of all the elements of the range and nothing else.", "quantifier": "every binary tree, every position", "why_tests_cant": "Tests enumerate a handful of fixed trees; shapes, depths and fan-outs are unbounded and the traversal code navigates by parent/sibling links whose case split (first/last/only child, unary chains, missing left child) no finite set of shapes exhausts.", "anchors": ["include/TreeDS/tree.hpp:erase", "include/TreeDS/tree.hpp:erase_subtree", "include/TreeDS/tree.hpp:replace_node"]}
{"id": "C30", "title": "erase(position) on n-ary trees removes exactly that subtree", "statement": "Same as the previous property for n-ary trees, for first, middle, last and only children and the root.", "quantifier": "every n-ary tree, every position", "why_tests_cant": "Tests enumerate a handful of fixed trees; shapes, depths and fan-outs are unbounded and the traversal code navigates by parent/sibling links whose case split (first/last/only child, unary chains, missing left child) no finite set of shapes exhausts.", "anchors": ["include/TreeDS/tree.hpp:erase", "include/TreeDS/node/nary_node.hpp:replace_with"]}
{"id": "C31", "title": "size() and arity() stay right along every history", "statement": "After any sequence of successful operations size() is the number of nodes and arity() the largest number of children of any node.", "quantifier": "every finite history of operations, with size()/arity() called at arbitrary moments", "why_tests_cant": "The cached values with a 'not yet known' encoding make the result depend on the history, not on the state of the tree.", "anchors": ["include/TreeDS/tree.hpp:replace_node", "include/TreeDS/tree.hpp:add_child", "include/TreeDS/tree_base.hpp:size"]}
{"id": "C32", "title": "clear and destruction release exactly the owned nodes", "statement": "clear() and the destructor release every node of the tree exactly once, nothing else, and leave an empty tree of size 0 and arity 0.", "quantifier": "every tree", "why_tests_cant": "Statement over all heaps.", "anchors": ["include/TreeDS/tree.hpp:nullify", "include/TreeDS/allocator_utility.hpp:deallocate"]}
{"id": "C33", "title": "Failing modifications leave the tree as it was and leak nothing", "statement": "When insert_over/insert_child_* reports an error by exception the tree is unchanged and every node allocated by the call is released.", "quantifier": "every tree, every invalid position, every argument", "why_tests_cant": "Tests enumerate a handful of fixed trees; shapes, depths and fan-outs are unbounded and the traversal code navigates by parent/sibling links whose case split (first/last/only child, unary chains, missing left child) no finite set of shapes exhausts.", "anchors": ["include/TreeDS/tree.hpp:modify_subtree", "include/TreeDS/tree.hpp:add_child"]}
{"id": "C34", "title": "Failing move-insertions leave the moved-from tree destructible", "statement": "When insert_child_front/back(position, std::move(tree)) throws, the argument tree can still be destroyed safely (no double release).", "quantifier": "every pair of trees, every invalid position", "why_tests_cant": "Tests enumerate a handful of fixed trees; shapes, depths and fan-outs are unbounded and the traversal code navigates by parent/sibling links whose case split (first/last/only child, unary chains, missing left child) no finite set of shapes exhausts.", "anchors": ["include/TreeDS/tree.hpp:insert_child_front", "include/TreeDS/tree.hpp:add_child"]}
{"id": "C35", "title": "No history of valid calls leaks, double-frees or shares nodes", "statement": "Starting from no tree, along any finite sequence of construct / copy / move / assign / swap / insert_over / insert_child / erase / clear / destroy calls with valid arguments, at every moment the live nodes are exactly the disjoint union of the nodes of the live trees, all links are coherent, and no call dereferences a null or released node.", "quantifier": "every finite history over any number of trees", "why_tests_cant": "An invariant over all histories and all aliasing patterns.", "anchors": ["include/TreeDS/tree.hpp", "include/TreeDS/allocator_utility.hpp"]}
{"id": "C36", "title": "Node queries are mutually consistent", "statement": "first/last child, next/previous sibling, parent, is_first_child/is_last_child, left/right child, get_child(i), children() and following_siblings() of every node agree with the position of the node in the tree.", "quantifier": "every tree and node, every index", "why_tests_cant": "Tests enumerate a handful of fixed trees; shapes, depths and fan-outs are unbounded and the traversal code navigates by parent/sibling links whose case split (first/last/only child, unary chains, missing left child) no finite set of shapes exhausts.", "anchors": ["include/TreeDS/node/binary_node.hpp", "include/TreeDS/node/nary_node.hpp"]}
{"id": "C37", "title": "Predicate navigators skip filtered nodes", "statement": "first child / next sibling (and last child / previous sibling) of a predicate navigator return the nearest child or sibling satisfying the predicate, or nothing.", "quantifier": "every tree, node and predicate", "why_tests_cant": "Tests enumerate a handful of fixed trees; shapes, depths and fan-outs are unbounded and the traversal code navigates by parent/sibling links whose case split (first/last/only child, unary chains, missing left child) no finite set of shapes exhausts.", "anchors": ["include/TreeDS/node/navigator/node_pred_navigator.hpp", "include/TreeDS/utility.hpp:keep_calling"]}
{"id": "C38", "title": "Structure literals know their size, arity, levels and indexes", "statement": "For a literal built with n(v)(...), subtree_size is the number of non-empty nodes, subtree_arity the largest fan-out, every node's level is its depth and its index is its position among its siblings.", "quantifier": "every literal", "why_tests_cant": "Tests enumerate a handful of fixed trees; shapes, depths and fan-outs are unbounded and the traversal code navigates by parent/sibling links whose case split (first/last/only child, unary chains, missing left child) no finite set of shapes exhausts.", "anchors": ["include/TreeDS/node/struct_node.hpp"]}
{"id": "C39", "title": "Iterator equality means same element of the same view", "statement": "Two iterators compare equal exactly if they denote the same node (or both the end) and have the same navigation root.", "quantifier": "every pair of iterators", "why_tests_cant": "Tests enumerate a handful of fixed trees; shapes, depths and fan-outs are unbounded and the traversal code navigates by parent/sibling links whose case split (first/last/only child, unary chains, missing left child) no finite set of shapes exhausts.", "anchors": ["include/TreeDS/tree_iterator.hpp:operator=="]}
{"id": "C40", "title": "Pattern of plain nodes: search finds an embedding and reports it faithfully", "statement": "search of a pattern consisting of one(value)(...) matchers succeeds on a tree only with nodes that form an occurrence of the pattern, and the assigned result tree consists of exactly the matched nodes' values in the pattern's shape.", "quantifier": "every pattern of plain matchers and every tree", "why_tests_cant": "Search/backtracking over unbounded trees and patterns.", "anchors": ["include/TreeDS/matcher/node/matcher.hpp", "include/TreeDS/matcher/node/one_matcher.hpp", "include/TreeDS/matcher/pattern.hpp"]}
{"id": "C41", "title": "The iterator returned by insert_over continues the iteration", "statement": "After it = tree.insert_over(pos, x) with a non-empty x, *it is the root of what was inserted, and the loop from it to end() visits the rest of the new tree's order from that node on.", "quantifier": "every tree, position, policy and inserted value, literal or tree", "why_tests_cant": "The returned iterator keeps the navigator and the pending queue of the old one; whether they fit the edited tree depends on the position, the shape and the policy, all unbounded.", "anchors": ["include/TreeDS/tree.hpp:insert_over, modify_subtree", "include/TreeDS/tree_iterator.hpp", "include/TreeDS/policy/breadth_first.hpp:update"]}
{"id": "C42", "title": "Copying a view copies only that subtree", "statement": "A tree constructed or assigned from a view of a node contains exactly the nodes below and including that node; nothing outside the viewed subtree is copied.", "quantifier": "every tree and every node of it used as the root of the view", "why_tests_cant": "Whether siblings of the viewed node leak into the copy depends on the position of the node among its siblings at any depth; tests only view a few fixed nodes.", "anchors": ["include/TreeDS/tree.hpp", "include/TreeDS/tree_view.hpp", "include/TreeDS/node/nary_node.hpp", "include/TreeDS/node/binary_node.hpp", "include/TreeDS/allocator_utility.hpp"]}
{"id": "C43", "title": "Iteration with a predicate navigator visits exactly the pruned tree", "statement": "Iterating with a navigator that filters nodes by a predicate visits, in the policy's order, exactly the nodes of the tree left when every node failing the predicate is cut off with all its descendants, each once, and ends.", "quantifier": "every tree, every predicate and every traversal order", "why_tests_cant": "The filtered navigator changes which links the traversal policies see; which combination of failing first, middle and last children breaks the climb depends on unbounded shapes and arbitrary predicates.", "anchors": ["include/TreeDS/node/navigator/node_pred_navigator.hpp", "include/TreeDS/policy"]}
{"id": "C44", "title": "Patterns with optional levels", "statement": "For a pattern built from one, opt and cpt in which every opt is given at least one child, pattern::search on a tree (or view) ends and succeeds exactly if the pattern matches at the root, where opt(v)(c) matches a node either as a level of its own (v accepts the node and c matches below it) or as an absent level (c matches the node itself; for possessive only if v rejects the node; with several children the level has to be present). assign_result then yields the first match in order, preferring present levels, and assign_mark the part of it each cpt stands at; trees other than the target are untouched and nothing leaks.", "quantifier": "all such patterns (any value matchers, quantifiers, nesting), all n-ary and binary trees and views, all earlier uses of the pattern object, all tree objects as targets", "why_tests_cant": "the search backtracks over levels and children; correctness must hold for every combination of pattern shape, tree shape and predicate", "anchors": ["include/TreeDS/matcher/node/matcher.hpp: search_node, search_node_this, search_node_child, search_node_sibling", "include/TreeDS/matcher/node/opt_matcher.hpp: search_node_impl, result_impl", "include/TreeDS/matcher/node/capture.hpp", "include/TreeDS/matcher/pattern.hpp: search, assign_result, assign_mark"]}
{"id": "C45", "title": "Optional pattern nodes without children", "statement": "For every pattern, also one with childless opt nodes, search ends without following an invalid pointer; a childless opt(v) takes at most a node that v accepts; a search does not succeed because of an optional node when it fails without it; and the nodes in the result are nodes of the tree in their own positions.", "quantifier": "all patterns, all trees and views, all earlier uses of the pattern object", "why_tests_cant": "the matched nodes of abandoned candidates stay in the pattern object; only some combinations of tree and pattern reveal them", "anchors": ["include/TreeDS/matcher/node/opt_matcher.hpp: search_node_impl, info", "include/TreeDS/matcher/node/matcher.hpp: search_node_sibling, search_node_this, child_may_steal_node"]}
{"id": "C46", "title": "A multiple pointer walks several trees in step", "statement": "A multiple_node_pointer whose components point to the nodes at one path of several trees of the same shape: after each of get_parent, get_prev_sibling, get_next_sibling, get_first_child and get_last_child either every component is null or every component points to the node of its own tree at one and the same path, the one the step leads to. get_left_child and get_right_child move each component in its own binary tree; a component whose tree has no such child becomes null and stays null. Two multiple pointers into the same trees compare equal exactly if they are at the same path.", "quantifier": "every number of trees, every common shape, every path and every step", "why_tests_cant": "the components move independently; that they never drift apart must hold for every shape, position and step", "anchors": ["include/TreeDS/node/multiple_node_pointer.hpp: do_function, get_parent, get_prev_sibling, get_next_sibling, get_left_child, get_right_child, get_first_child, get_last_child, operator bool, operator=="]}
{"id": "C47", "title": "Traversing with a generative navigator builds the copy", "statement": "Traversing a tree breadth-first with a generative_navigator whose second pointer starts at a single new node with the root's value, under a predicate on values, ends; what then hangs under that node is a copy of the tree without the nodes that fail the predicate and all their descendants, every other node in its own place (for binary trees: on its own side); the traversed tree and all other memory are unchanged and every other node of the copy is newly allocated. And each step of such a navigator answers a node of the traversed tree together with the node that was generated for it.", "quantifier": "every tree (also a subtree of a larger one), every predicate, every allocator; for the last sentence every sequence of navigator steps", "why_tests_cant": "which nodes the copy gets depends on the interleaving of generation and navigation over both trees; the pairing must hold at every step for every shape and predicate", "anchors": ["include/TreeDS/node/navigator/generative_navigator.hpp: do_navigate_generate, get_next_sibling, get_first_child", "include/TreeDS/node/navigator/node_pred_navigator.hpp", "include/TreeDS/node/multiple_node_pointer.hpp: assign_pointer, is_pointer_assigned", "include/TreeDS/policy/breadth_first.hpp: increment_impl, manage_initial_status", "include/TreeDS/node/binary_node.hpp: assign_child_like"]}
{"id": "C48", "title": "Searching with star reports real matches, and finds those of single-child stars", "statement": "For a pattern of one, opt, star and cpt matchers in which every opt and star is given children: search ends and, if it reports a match, there is a way to map the matchers to nodes of the tree so that values are accepted, children of one and opt go to children in order, and children of a star go, in order, to nodes below its node that are reached only through nodes the star accepts, none inside another (for a possessive star: to the topmost nodes not accepted). If moreover every non-possessive star has only one child, or children that match no node the star accepts, then a match is reported whenever there is one, also when the same pattern object searched the same tree before. star(p)(u) is thus found exactly if u matches the root or the root is accepted and u matches a node reached through accepted nodes. In an empty tree nothing is found.", "quantifier": "every pattern, every value predicate, every tree (n-ary and binary), every earlier use of the pattern object", "why_tests_cant": "the search backtracks over positions at every level and keeps state between attempts; termination and correctness depend on every combination of pattern and tree", "anchors": ["include/TreeDS/matcher/node/multi_matcher.hpp: search_node_impl, get_match_iterator, get_backtrack_funcion, get_ackowledge_funcion", "include/TreeDS/matcher/node/matcher.hpp: search_node, search_node_this, search_node_sibling, reset", "include/TreeDS/matcher/pattern.hpp: search", "include/TreeDS/policy/pre_order.hpp: go_depth_first_ramification", "include/TreeDS/node/navigator/node_pred_navigator.hpp"]}
{"id": "C49", "title": "Searching with star misses no match", "statement": "For every pattern of one, opt, star and cpt matchers in which every opt and star is given children, and every pattern object, however it was used before: search reports a match whenever the pattern matches at the root of the tree.", "quantifier": "every pattern, every tree, every history of the pattern object and of the tree between searches", "why_tests_cant": "completeness of a backtracking search over all trees and patterns; leftover state of earlier searches", "anchors": ["include/TreeDS/matcher/node/multi_matcher.hpp: search_node_impl, get_match_iterator, get_backtrack_funcion, get_ackowledge_funcion", "include/TreeDS/matcher/node/matcher.hpp: search_node, search_node_this, search_node_sibling, reset", "include/TreeDS/matcher/pattern.hpp: search", "include/TreeDS/policy/pre_order.hpp: go_depth_first_ramification", "include/TreeDS/node/navigator/node_pred_navigator.hpp"]}
{"id": "C50", "title": "assign_result and assign_mark after a star search give the match", "statement": "After a successful search with a pattern of one, opt, star and cpt matchers in which every opt and star is given children and every reluctant star one child: assign_result replaces the target tree by new nodes that hold the values of a match. The node of a present star is filled in with the levels it stands for: nodes taken by its children become their results, accepted nodes on the way to them are kept; a greedy or possessive star also keeps every other node reached through accepted nodes, a reluctant star none. The nodes keep their order and, in a binary tree, their left or right slot. Without default stars there is exactly one such tree for a match. The old nodes of the target are released, every other tree is unchanged (the target may be the searched tree). assign_mark does the same for the k-th marked matcher. If no search of the pattern ever succeeded, both calls throw and change nothing.", "quantifier": "every pattern, value predicate, n-ary and binary tree or subtree, target tree, allocator", "why_tests_cant": "the result depends on the whole assignment of nodes to matchers and on a breadth-first traversal that generates the tree while it walks it", "anchors": ["include/TreeDS/matcher/node/multi_matcher.hpp: result_impl, children_set_result, children_reluctant_set_result", "include/TreeDS/matcher/node/matcher.hpp: result, did_child_steal_node, clone_matched_node", "include/TreeDS/matcher/pattern.hpp: assign_result, assign_mark", "include/TreeDS/node/navigator/generative_navigator.hpp", "include/TreeDS/policy/breadth_first.hpp"]}
{"id": "C51", "title": "A reluctant star with several children reports nodes of the tree", "statement": "For every pattern in which every opt and star is given children, the tree reported by assign_result after a successful search is made of nodes of the searched tree, each at most once; and for every pattern assign_result after a successful search reads no null pointer.", "quantifier": "every pattern with reluctant stars, every tree", "why_tests_cant": "depends on which nodes the children of the star share on the way to the star's node", "anchors": ["include/TreeDS/matcher/node/multi_matcher.hpp: result_impl, children_set_result, children_reluctant_set_result", "include/TreeDS/matcher/node/matcher.hpp: result, did_child_steal_node, clone_matched_node", "include/TreeDS/matcher/pattern.hpp: assign_result, assign_mark"]}
{"id": "C52", "title": "A star without children matches every tree and reports the root, the tree or nothing", "statement": "A search with star<q>(v) without children in any tree or subtree (also an empty tree) succeeds. assign_result then gives the target tree, in newly allocated nodes, with every other tree unchanged: nothing (reluctant), the root's value alone (default), and, provided v accepts every value below the root, a copy of the whole searched tree (greedy, possessive), in a binary tree with every node in its slot.", "quantifier": "every n-ary and binary tree, every subtree of it, every test v, every quantifier, every state of the pattern object and every target tree", "why_tests_cant": "ranges over all trees, tests, earlier searches of the pattern object and allocators", "anchors": ["include/TreeDS/matcher/node/multi_matcher.hpp: search_node_impl, no_children_set_result, keep_assigning_children", "include/TreeDS/matcher/pattern.hpp: search, assign_result"]}
{"id": "C53", "title": "The result of a star without children is computed in finite time and contains accepted nodes only", "statement": "assign_result after a successful search with a greedy or possessive star without children terminates; and a star without children matches only a tree whose root its test accepts.", "quantifier": "every tree with a rejected node below the root, every tree with a rejected root", "why_tests_cant": "a test cannot show that a call never returns; the failing set is characterised exactly", "anchors": ["include/TreeDS/matcher/node/multi_matcher.hpp: search_node_impl, no_children_set_result, keep_assigning_children", "include/TreeDS/matcher/pattern.hpp: search, assign_result"]}
{"id": "C54", "title": "Printing a tree writes the literal that builds it, cut to the limit", "statement": "print_tree (and operator<<) of a tree or a view ends and writes: n() for an empty tree; nothing if the limit is not positive; otherwise the text of the tree's literal n(v)(...), one node per line, indented, a missing left child of a binary node written n(), of which exactly the first `limit` nodes in pre-order are shown and every list of arguments with something left out ends in dots. A tree printed in full gives a text that, read as code, is a literal equal to the tree (== returns true), and two trees printed in full have the same text only if they are equal, provided the texts of the values can be told apart up to a closing parenthesis.", "quantifier": "every n-ary and binary tree and subtree, every limit, every indentation, every text of the values", "why_tests_cant": "ranges over all shapes and limits; where the text is cut depends on the whole shape of the tree", "anchors": ["include/TreeDS/utility.hpp: code_like_print, print_node, print_tree", "include/TreeDS/tree_base.hpp: operator<<"]}
{"id": "C55", "title": "The printed text tells which tree of strings it is", "statement": "Two trees of strings printed in full with the same text are equal.", "quantifier": "every pair of trees whose values are strings", "why_tests_cant": "ranges over all pairs of trees and all strings", "anchors": ["include/TreeDS/utility.hpp: code_like_print, print_node, print_tree", "include/TreeDS/tree_base.hpp: operator<<"]}
{"id": "C56", "title": "Iterators to surviving nodes stay valid", "statement": "An iterator with policy pre-order, post-order, in-order or siblings that stood at a node stays an iterator of the tree at that node after any modification that leaves the node in a tree with the same root: the loop from it visits the rest of the tree's present order, and ++ and -- move along that order.", "quantifier": "every tree, node and policy of the four, every later state of the tree (after any sequence of insertions, erasures, copies, swaps, moves) that still contains the node under the same root, every sequence of moves", "why_tests_cant": "ranges over all trees and all histories between making the iterator and using it", "anchors": ["include/TreeDS/tree_iterator.hpp: tree_iterator", "include/TreeDS/policy/policy_base.hpp", "include/TreeDS/policy/pre_order.hpp", "include/TreeDS/policy/post_order.hpp", "include/TreeDS/policy/in_order.hpp", "include/TreeDS/policy/siblings.hpp"]}
{"id": "C57", "title": "Breadth-first iterators to surviving nodes stay valid", "statement": "An iterator with policy breadth-first that stood at a node can be incremented after any modification that leaves that node in the tree.", "quantifier": "every tree, node and later state of the tree that still contains the node", "why_tests_cant": "ranges over all trees and all histories between making the iterator and using it", "anchors": ["include/TreeDS/policy/breadth_first.hpp: open_nodes, increment_impl"]}
{"id": "C58", "title": "A failed allocation leaves every tree as it was", "statement": "When the allocation of a node or the construction of a value fails during a construction, assignment or insertion that creates nodes, the call throws, and every tree object has the contents it had before, at the same nodes; when nothing fails the call behaves as usual. (Failing allocations of iterators: C80, C81.)", "quantifier": "every consistent state, every construct / assign / insert_over / insert_child_* / emplace_* call from a value, literal, tree or view, every conversion of a binary tree to an n-ary tree by construction or assignment, and every moment at which the failure occurs", "why_tests_cant": "ranges over all trees, calls and failure points", "anchors": ["include/TreeDS/allocator_utility.hpp: allocate", "include/TreeDS/tree.hpp: tree, operator=, insert_over, insert_child_front, insert_child_back", "include/TreeDS/node/nary_node.hpp: constructors", "include/TreeDS/node/binary_node.hpp: constructors", "include/TreeDS/nary_tree.hpp: nary_tree, operator="]}
{"id": "C59", "title": "A failed allocation leaks nothing", "statement": "When an allocation or the construction of a value fails during a construction, assignment or insertion, every node the call had created is released.", "quantifier": "every consistent state, every call that creates nodes and every moment at which the failure occurs", "why_tests_cant": "ranges over all trees, calls and failure points", "anchors": ["include/TreeDS/allocator_utility.hpp: allocate", "include/TreeDS/node/nary_node.hpp: constructors", "include/TreeDS/node/binary_node.hpp: constructors", "include/TreeDS/nary_tree.hpp: nary_tree, operator="]}
{"id": "C60", "title": "A capture is found by its name", "statement": "After a successful search, assign_mark with a name that is used once in the pattern gives the tree the result of the sub-pattern written in cpt(name, ...), in new nodes; every other tree is unchanged. A name that does not occur in the pattern, or an empty one, is rejected when compiling; every other name is accepted.", "quantifier": "every pattern with any number of named and unnamed captures (nested or not), every tree, every name and every tree the result is assigned to", "why_tests_cant": "ranges over all patterns and trees", "anchors": ["include/TreeDS/matcher/utility.hpp: index_of_capture, is_valid_name, matcher_traits", "include/TreeDS/matcher/node/matcher.hpp: captures_t, marked_result", "include/TreeDS/matcher/pattern.hpp: assign_mark"]}
{"id": "C61", "title": "Names of captures are unique", "statement": "A pattern in which two captures have the same (non-empty) name does not compile; a pattern with different names does.", "quantifier": "every pattern", "why_tests_cant": "ranges over all patterns", "anchors": ["include/TreeDS/matcher/node/matcher.hpp: static_assert \"Named captures must have unique names\"", "include/TreeDS/matcher/utility.hpp: matcher_traits"]}
{"id": "C62", "title": "Leaves iterators to surviving leaves stay valid", "statement": "An iterator with the policy leaves that reached a leaf by ++ stays usable after modifications of the tree that keep the leaf and the root: the loop from it visits the leaf and the leaves after it of the tree as it is now.", "quantifier": "every tree before and after, every leaf, any modifications between", "why_tests_cant": "ranges over all trees, leaves and histories of modifications", "anchors": ["include/TreeDS/policy/leaves.hpp: increment_impl, go_first_impl, update"]}
{"id": "C63", "title": "A leaves iterator made at a node continues with the leaves after it", "statement": "it.other_policy(leaves) at a leaf is an iterator from which the loop to end(leaves) visits that leaf and the leaves after it.", "quantifier": "every tree and every leaf", "why_tests_cant": "ranges over all trees and leaves", "anchors": ["include/TreeDS/policy/leaves.hpp: constructors, increment_impl", "include/TreeDS/tree_iterator.hpp: other_policy"]}
{"id": "C64", "title": "Every literal a binary tree accepts is built entirely", "statement": "If binary_tree<T> t = n(v)(c1, ..., ck) compiles, t has a node for every value written in the literal, size() is the number of its nodes, and t == the literal.", "quantifier": "every literal with at most two children that are not n() at each node", "why_tests_cant": "ranges over all literals", "anchors": ["include/TreeDS/node/binary_node.hpp: binary_node(struct_node), allocate_left_child, allocate_right_child, operator==(struct_node)", "include/TreeDS/tree.hpp: tree(struct_node)"]}
{"id": "C65", "title": "Iterator moves go to the relative they name", "statement": "go_parent(), go_prev_sibling(), go_next_sibling(), go_first_child(), go_last_child() and go_child(i) put an iterator, of any policy, on that relative of its node within its tree or view, or at the end if there is none; the iterator keeps its policy and its tree, and iteration continues from the new node as if it had been reached by ++. other_node(n) likewise keeps policy and tree and continues from n.", "quantifier": "every tree or view, node, policy and move", "why_tests_cant": "ranges over all trees, views, nodes, policies and moves", "anchors": ["include/TreeDS/tree_iterator.hpp: other_node, do_move, go_parent, go_prev_sibling, go_next_sibling, go_first_child, go_last_child, go_child", "include/TreeDS/policy/policy_base.hpp: policy_base(other, current)", "include/TreeDS/node/navigator/navigator_base.hpp"]}
{"id": "C66", "title": "Value matchers accept what they say", "statement": "In a pattern, one() and opt() accept every node, one(v) accepts exactly the nodes whose value equals v, and one(having(a, f)) exactly those for whose value f returns a; search() succeeds exactly if the whole pattern, read that way, fits the tree (children of a matcher fit distinct children of the node, in order; an opt level may be absent).", "quantifier": "every binary and n-ary tree, every pattern of one, opt (with children) and cpt with any values, any artifact type and any getter", "why_tests_cant": "tests use a few literal values and getters; the claim ranges over all patterns, getters and trees", "anchors": ["include/TreeDS/matcher/node/matcher.hpp: match_value", "include/TreeDS/matcher/value/product_match.hpp: having", "include/TreeDS/matcher/value/true_matcher.hpp", "include/TreeDS/matcher/node/one_matcher.hpp: one"]}
{"id": "C67", "title": "Printing with addresses", "statement": "print_tree with address_digits = d > 0 prints the text that it prints without addresses, with \" @\" and the last d hexadecimal digits of the address of each node shown after its value.", "quantifier": "every binary and n-ary tree, limit, indentation, number of digits below 16, memory layout, stream formatting and text of the values", "why_tests_cant": "ranges over all trees, limits, formattings of the stream and memory layouts", "anchors": ["include/TreeDS/utility.hpp: print_preferences, print_node, print_tree"]}
{"id": "C68", "title": "Printing a tree leaves the stream's formatting as it was", "statement": "After printing a tree, with or without addresses, the stream formats numbers and fills fields as it did before.", "quantifier": "every binary and n-ary tree, limit, number of digits below 16 and initial formatting of the stream", "why_tests_cant": "ranges over all trees, preferences and formattings", "anchors": ["include/TreeDS/utility.hpp: print_node, print_tree"]}
{"id": "C69", "title": "A filtered iterator is an iterator over the accepted elements", "statement": "A tree_iterator_filter made from an iterator stands at the first accepted element from there on; ++ and -- in any mixture then move it one accepted element forward or back (++ from the end goes to the first), and its state is that of an iterator created at that element; other_policy keeps it at its element.", "quantifier": "every binary and n-ary tree, two-way policy, predicate, starting position and sequence of ++ and --", "why_tests_cant": "ranges over all trees, predicates and sequences of moves", "anchors": ["include/TreeDS/tree_iterator_filter.hpp: tree_iterator_filter, operator++, operator--, other_policy", "include/TreeDS/tree_iterator.hpp"]}
{"id": "C70", "title": "A filtered iterator stands at accepted elements only", "statement": "However a filtered iterator is moved (go_parent, go_child and so on), it stands at an accepted element or at the end.", "quantifier": "every binary and n-ary tree, policy, predicate, element and move", "why_tests_cant": "ranges over all trees, predicates, elements and moves", "anchors": ["include/TreeDS/tree_iterator_filter.hpp", "include/TreeDS/tree_iterator.hpp: do_move, go_parent, go_prev_sibling, go_next_sibling, go_first_child, go_last_child, go_child"]}
{"id": "C71", "title": "An assigned filtered iterator behaves as the other", "statement": "After f = g, filtered iterators f and g compare equal and ++f leads where ++g leads.", "quantifier": "every binary and n-ary tree, two-way policy, pair of predicates and element", "why_tests_cant": "ranges over all trees, predicates and elements", "anchors": ["include/TreeDS/tree_iterator_filter.hpp: operator="]}
{"id": "C72", "title": "get_root and the breadth-first index of a node", "statement": "From every node of a tree, get_root() returns the tree's root node, and get_breadth_first_node_index() returns the number of nodes before it in breadth-first order.", "quantifier": "every binary and n-ary tree and node", "why_tests_cant": "ranges over all tree shapes and nodes", "anchors": ["include/TreeDS/node/node.hpp: get_root, get_breadth_first_node_index"]}
{"id": "C73", "title": "A node's own account of its place", "statement": "is_root() is true of the tree's root only; has_children() is true exactly of nodes with a child; is_unique_child() is true exactly of a node whose parent has no other child, and false of the root.", "quantifier": "every binary and n-ary tree and node", "why_tests_cant": "ranges over all tree shapes and nodes", "anchors": ["include/TreeDS/node/node.hpp: is_root, has_children, is_unique_child"]}
{"id": "C74", "title": "Nodes go back to the allocator they came from", "statement": "Whatever calls are made on trees with stateful (unequal) allocators, the nodes of a tree were made by the tree's own allocator and a node is never released to another one.", "quantifier": "every reachable set of tree objects with any allocators, and every call on them", "why_tests_cant": "ranges over all histories and assignments of allocators to trees; tests use std::allocator, all of whose objects are equal", "anchors": ["include/TreeDS/tree.hpp: constructors, operator=, swap, insert_over, insert_child_front, insert_child_back, replace_node, assign", "include/TreeDS/tree_base.hpp: allocator", "include/TreeDS/allocator_utility.hpp: deallocate, deleter"]}
{"id": "C75", "title": "get_allocator returns the allocator supplied", "statement": "get_allocator() returns a copy of the allocator the tree was given; get_node_allocator() is (a rebound copy of) the same allocator.", "quantifier": "every history of calls and every tree", "why_tests_cant": "ranges over all histories and allocators", "anchors": ["include/TreeDS/tree_base.hpp: get_allocator, get_node_allocator, useless_allocator"]}
{"id": "C76", "title": "Threads that only read share trees", "statement": "Any number of threads may call const member functions (empty, size, arity, ==, loops with const iterators) of the same trees at the same time: no data race, no change of the trees, every call terminates and returns what it would return alone.", "quantifier": "every number of threads, every list of calls of each, every interleaving, every contents of the trees", "why_tests_cant": "ranges over all schedules of any number of threads; a race shows in a test only by chance", "anchors": ["include/TreeDS/tree_base.hpp: size, arity, operator==, size_value, arity_value (mutable)"]}
{"id": "C77", "title": "Smart pointers to nodes and trees share no node and lose none", "statement": "Along every history of valid calls that create smart pointers to nodes (from a value, a literal, a copy of a tree or by moving a node), give them to trees (constructor or assignment), let them end, and use the trees: every node belongs to exactly one tree or pointer, a tree given a pointer has the very nodes it owned and the pointer is null, the nodes the tree had are released, and when all trees and pointers have ended no node is left; trees report right sizes.", "quantifier": "every history of calls, every allocator behaviour, every contents, both kinds of trees", "why_tests_cant": "ranges over all histories of calls on any number of pointers and trees", "anchors": ["include/TreeDS/tree.hpp: tree(unique_ptr_alloc, size, arity), operator=(unique_ptr_alloc)", "include/TreeDS/allocator_utility.hpp: unique_ptr_alloc, allocate, deleter"]}
{"id": "C78", "title": "A node moved from another takes over its children", "statement": "A node constructed by moving from another one has its value and takes its place: the children with everything below them, in order, now below the new node, and the old node left alone; all other trees are unchanged and nothing is lost.", "quantifier": "every tree and every node of it, both kinds of nodes", "why_tests_cant": "ranges over all trees and nodes", "anchors": ["include/TreeDS/node/nary_node.hpp: nary_node(nary_node&&)", "include/TreeDS/node/binary_node.hpp: binary_node(binary_node&&)"]}
{"id": "C79", "title": "Nodes given to trees by smart pointers go back to their allocator", "statement": "Along every history of calls that create smart pointers to nodes with any allocators, give them to trees, move nodes, let pointers and trees end and use the trees: every node is released to the allocator that made it.", "quantifier": "every history of calls, every assignment of allocators, both kinds of trees", "why_tests_cant": "ranges over all histories and all ways to combine allocators; a mismatch is silent with std::allocator", "anchors": ["include/TreeDS/allocator_utility.hpp: deleter, allocate", "include/TreeDS/tree.hpp: tree(unique_ptr_alloc, size, arity), operator=(unique_ptr_alloc), assign"]}
{"id": "C80", "title": "An increment or decrement that runs out of memory can be repeated", "statement": "If ++ or -- of an iterator throws because its queue or stack cannot grow, the iterator still stands where it stood, and repeating the call later goes where it would have gone: no node is skipped and none is visited twice.", "quantifier": "every tree of both kinds, every policy, every position of the iterator, every amount of memory left", "why_tests_cant": "ranges over all trees, positions and allocation failure points; the failure is very hard to provoke in a test", "anchors": ["include/TreeDS/policy/breadth_first.hpp: increment_impl, decrement_impl, go_first_impl", "include/TreeDS/policy/leaves.hpp: increment_impl, decrement_impl, go_first_impl", "include/TreeDS/policy/policy_base.hpp: increment, decrement", "include/TreeDS/tree_iterator.hpp: operator++, operator--"]}
{"id": "C81", "title": "An insertion that cannot make its breadth-first iterator changes nothing", "statement": "If insert_over, insert_child_front/back or emplace_* throws because the queue of a breadth-first iterator cannot get memory, every tree has the contents it had before, no node is leaked and every node belongs to one tree; with iterators of other policies, or with enough memory, the calls behave as usual.", "quantifier": "every consistent state, both kinds of tree, every position, every argument (value, literal, tree, view, moved tree), every amount of memory left for the queue", "why_tests_cant": "ranges over all trees, positions, arguments and allocation failure points", "anchors": ["include/TreeDS/tree.hpp: modify_subtree, add_child, insert_over, insert_child_front, insert_child_back", "include/TreeDS/policy/breadth_first.hpp: manage_initial_status, update", "include/TreeDS/policy/policy_base.hpp: get_instance"]}
{"id": "C82", "title": "One step of a generative navigator generates the node it goes to, in its place", "statement": "From a node of the traversed tree and the node generated for it, whenever nothing is generated yet in the direction of the step: get_first_child, get_last_child, get_next_sibling, get_prev_sibling, get_left_child and get_right_child of a generative_navigator end and answer the nearest node in that direction that passes the predicate, together with one newly allocated node holding its value, which is attached at the corresponding place of the generated tree (order among siblings, side of the parent); or answer null and change nothing if there is none. The traversed tree and all other memory stay as they are; from the root no sibling is reached.", "quantifier": "every tree (also a subtree of a larger one), every position, every predicate on values, every partly generated copy, every allocator", "why_tests_cant": "ranges over all trees, positions, predicates and partly generated copies", "anchors": ["include/TreeDS/node/navigator/generative_navigator.hpp: do_navigate_generate, get_prev_sibling, get_next_sibling, get_first_child, get_last_child, get_left_child, get_right_child", "include/TreeDS/node/navigator/node_pred_navigator.hpp: get_prev_sibling, get_next_sibling, get_first_child, get_last_child", "include/TreeDS/node/multiple_node_pointer.hpp: do_function, assign_pointer", "include/TreeDS/node/nary_node.hpp: assign_child_like", "include/TreeDS/node/binary_node.hpp: assign_child_like"]}
{"id": "C83", "title": "A failed creation of a node while a result is assigned changes nothing", "statement": "After a successful search with a pattern of one, opt (with children) and cpt matchers, assign_result and assign_mark create exactly as many nodes as the match (or the mark) has. If one of these creations fails, the call throws; every tree object, the target included, holds the nodes and values it held before, and if it was the allocator that threw no memory is lost: the program is in exactly the state it was in before the call. If none fails the call is as if nothing could fail.", "quantifier": "every tree (or subtree) searched, every such pattern, every target tree, every mark, every point of failure, every allocator, both kinds of trees", "why_tests_cant": "ranges over all trees, patterns and points of failure", "anchors": ["include/TreeDS/matcher/pattern.hpp: assign_result, assign_mark", "include/TreeDS/matcher/node/matcher.hpp: result, marked_result, did_child_steal_node, clone_matched_node", "include/TreeDS/matcher/node/one_matcher.hpp: result_impl", "include/TreeDS/matcher/node/opt_matcher.hpp: result_impl", "include/TreeDS/matcher/node/capture.hpp: result_impl", "include/TreeDS/allocator_utility.hpp: allocate, deleter, unique_ptr_alloc"]}
{"id": "C84", "title": "A value whose copy throws while a result is assigned loses no memory", "statement": "As C83, when it is the constructor of the value that throws after the memory of its node was obtained: no memory is lost.", "quantifier": "every tree searched, every pattern of one, opt and cpt matchers, every target, every point of failure", "why_tests_cant": "ranges over all trees, patterns and points of failure", "anchors": ["include/TreeDS/allocator_utility.hpp: allocate", "include/TreeDS/matcher/pattern.hpp: assign_result, assign_mark"]}
{"id": "C85", "title": "With memory enough, failures of node creation are not noticed by star patterns", "statement": "For every pattern with star and everything it has matched: if assign_result (assign_mark) succeeds when no creation of a node can fail, then there is a number of nodes such that the call does exactly the same, with the same final state, in every execution in which at least that many nodes can be created.", "quantifier": "every pattern with one, opt, star and cpt, every state of its matchers, every target, every allocator, both kinds of failure, both kinds of trees", "why_tests_cant": "ranges over all patterns, states and points of failure", "anchors": ["include/TreeDS/matcher/pattern.hpp: assign_result, assign_mark", "include/TreeDS/matcher/node/multi_matcher.hpp: result_impl, children_reluctant_set_result, children_set_result, no_children_set_result, keep_assigning_children", "include/TreeDS/node/navigator/generative_navigator.hpp: get_next_sibling, get_first_child", "include/TreeDS/node/binary_node.hpp: allocate_assign_parent", "include/TreeDS/node/nary_node.hpp: allocate_assign_parent"]}
{"id": "C86", "title": "A failed creation of a node while the result of a star pattern is assigned loses no memory", "statement": "After a successful search with a pattern with star, if the creation of a node fails during assign_result the call throws, every tree object is as it was, and no memory is lost.", "quantifier": "every tree searched, every pattern with star, every target, every point of failure", "why_tests_cant": "ranges over all trees, patterns and points of failure", "anchors": ["include/TreeDS/matcher/pattern.hpp: assign_result, assign_mark", "include/TreeDS/matcher/node/multi_matcher.hpp: result_impl, children_reluctant_set_result, children_set_result, no_children_set_result, keep_assigning_children", "include/TreeDS/node/navigator/generative_navigator.hpp: get_next_sibling, get_first_child", "include/TreeDS/node/binary_node.hpp: allocate_assign_parent", "include/TreeDS/node/nary_node.hpp: allocate_assign_parent"]}
{"id": "C87", "title": "A generative navigator traversed in pre-order generates the whole pruned copy", "statement": "An iterator in pre-order over a generative_navigator, started at the navigator's root (a node of a tree and a single new node) and advanced to its end, terminates and leaves under the new node a copy of the tree without the nodes whose value fails the predicate and everything below them, in the same order, as the breadth-first traversal does (C47). All other nodes of the copy are newly allocated; the traversed tree and all other memory stay as they are.", "quantifier": "every n-ary and binary tree (also a subtree of a larger one), every predicate on values, every allocator", "why_tests_cant": "ranges over all trees and predicates; whether the copy is complete depends on where the nodes that fail stand", "anchors": ["include/TreeDS/policy/pre_order.hpp: increment_impl", "include/TreeDS/node/navigator/generative_navigator.hpp: do_navigate_generate, get_first_child, get_next_sibling", "include/TreeDS/node/navigator/navigator_base.hpp: is_last_child, get_parent", "include/TreeDS/utility.hpp: keep_calling"]}
{"id": "C88", "title": "Searching an empty tree succeeds exactly if the pattern requires no node, and then the result is empty", "statement": "A search in an empty tree ends for every pattern. It returns true exactly if nothing in the pattern requires a node: it is an opt or a star (or a capture of such a pattern) all of whose children may be absent, too. If the last search or an earlier one with this pattern object succeeded, assign_result and assign_mark of every capture leave the target tree empty, releasing what it held, and change no other tree; otherwise they throw and change nothing. What an earlier search in another tree matched plays no part.", "quantifier": "every pattern (also with weak nodes), every earlier use of the pattern object, every target tree, n-ary and binary", "why_tests_cant": "ranges over all patterns and all earlier uses of the pattern object", "anchors": ["include/TreeDS/matcher/pattern.hpp: do_search, assign_result, assign_mark", "include/TreeDS/matcher/node/matcher.hpp: search_node, reset, empty", "include/TreeDS/matcher/node/opt_matcher.hpp: info", "include/TreeDS/matcher/node/multi_matcher.hpp: info, search_node_impl"]}
