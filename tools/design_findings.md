
## 6. Findings

What the proofs showed about the code (theorem names where one states it).

1. **n-ary erase / `replace_with(nullptr)`**: on a first or only child it dereferences a
   null pointer (`C30_first_child_refuted`); on the last of several children it leaves the
   parent without last child, so that a later append loses nodes (`C30_last_child_refuted`).
   Middle children are right.
2. **Size cache**: replacing a leaf in a tree whose size is not yet known wraps it to
   2^64-1 (`C31_size_wraps_refuted`); `insert_child_front` of a literal and both
   `insert_child_*` of a tree add 1, not the number of nodes (`C31_size_refuted`);
   inserting an empty tree as a child adds 1; the arity of an inserted tree is ignored;
   `erase(first, last)` disturbs the cache.  `==` tests the caches first and is wrong then.
3. **insert_over at the root** returns an iterator whose navigator keeps the released root;
   pre-order `++` never reaches the end (`C41_returned_iterator_refuted`; for every tree: `C41_root_preorder_*_refuted`, and for the other policies the loop dereferences null, `C41_root_null_*_refuted`).  Into an empty tree
   it returns an iterator that points nowhere.
4. **insert_over at end()** of a non-empty tree throws after allocating: the new node leaks
   (`C33_insert_over_leak_refuted`).  **insert_child of a moved tree** that throws frees nodes the
   moved-from tree still owns: double free (`C34_insert_child_always_refuted`).
5. **n-ary views**: `==` dereferences null when the subtrees are equal and the left root has a
   next sibling but the right one none (`C22_next_sibling_refuted`); copying a view of a node
   with next siblings copies these too (`C42_view_nary_refuted`).
6. **leaves**: `--` does not maintain the stack (`C15_mixed_*_refuted`); an iterator built in the
   middle has an empty stack, so `++` ends early; `--` from the first leaf goes to the last.
   Post-/in-order `--` of `begin()` gives the root; breadth-first `--` of the root
   dereferences null.
7. **node_pred_navigator**: `get_prev_sibling` loops for ever if the previous sibling fails the
   predicate (`C37_backward_*_refuted`); `is_last`/`is_first` ignore the predicate, so pre-order ends early
   (`C43_preorder_refuted`).
8. **Binary literals with three slots** and `n()` in the middle: the third child is dropped, the
   size is wrong, `==` ignores the right child (`C64_*_refuted`).
9. **fixed**: begin == end; **siblings** begin..end enumerates the root's children.
10. **insert_over with a leaves iterator** on a leaf with a next sibling: the iterator's stack
    still holds the released node; its `++` is a use after free.
11. **Binary append** on a childless node fills the RIGHT slot; prepend on (l, ∅) gives (new, l);
    append on (∅, r) gives (r, new).  `insert_child_*` returns an iterator to the parent, not to the new node.
12. **opt(v) without children** matches any node (`C45_value_nary_refuted`, `C45_value_binary_refuted`, for every tree and every v), may report a node of an
    abandoned candidate (`C45_stale_refuted`) and may report success where there is no
    occurrence (`C45_false_positive_refuted`).
13. `multi_matcher::keep_assigning_children` loops for ever once a child has to be skipped
    (`continue` without advance): `C53_hang_nary_refuted`, `C53_hang_binary_refuted`.  The pattern's cache is never hit.  `detach_subtree` does not compile.
14. End iterators of two different empty trees compare equal (`C39_iterator_equality`).
15. **generative_navigator**: `get_first_child` after `get_last_child` pairs the first child with the node
    generated for the last one (`C47_pairing_refuted`); likewise with a binary node that has only a
    right child generated.  `reset_assignment_flags` assigns the pointers instead of the flags.
    `node != current` on multiple pointers (breadth_first.hpp 111) compares two bools in C++17.
16. **star**: backtracking starts below the first child of the abandoned node and so jumps over that child:
    a match is missed (`C49_missed_refuted`).  `subtree_cut` is not reset between searches
    (`C49_stale_refuted`).  `star(v)` without children matches a root that `v` does not accept (`C53_root_refuted`).
    `go_depth_first_ramification` sets `found` in the test whether or not it succeeds, so without a ramification it
    returns the bottom of the chain instead of null.  `get_search_funcion` is dead code.
17. **star results**: a reluctant `star` with several children duplicates the nodes they share on the way
    (`C51_duplicates_refuted`), and reads a null pointer if one of them took nothing (`C51_null_refuted`).
18. **Printing**: strings are quoted but not escaped, so different trees have the same text (`C55_quotes_refuted`).
    Dots in the place of all the children are indented by 4, not by `indentation_increment`.
19. **breadth_first iterators hold queued node pointers** (`open_nodes`): after erasing the next node in breadth-first
    order, `++` of an iterator at a surviving node is a use after free (`C57_breadth_first_*_refuted`).  `leaves`
    iterators keep a stack in the same way.
20. **Exceptions while nodes are created**: `allocate` does not release the memory when the constructor throws, and the
    constructors hold their children by raw pointers, so every node created before a bad_alloc (or before a throwing copy
    of a value) leaks (`C59_leak_refuted`).
21. **Named captures**: uniqueness of names is only checked between a capture and what is inside it, and not even that if
    it has no next sibling, because the specialization of `matcher_traits` for a matcher without siblings has
    `children_captures` and `siblings_captures` swapped (`C61_*_refuted`).  `index_of_capture` is 1, not 0, for the empty
    tuple, contrary to its comment (harmless).  `alternative_match` is not dispatched in `matcher::match_value`.
22. **Leaves iterators** keep the nodes on their way that have a next sibling: one made at a node (`other_policy(leaves)`,
    `go_child` and so on) has an empty stack and ends after one element (`C63_*_refuted`); `insert_over` through one
    leaves the released node on its stack, so `++` reads it (`C41_leaves_*_refuted`); erasing the sibling recorded makes
    `++` dereference null (`C62_*_refuted`).
23. **Printing with addresses** (`address_digits > 0`): `std::hex` and `std::setfill('0')` are never undone, so every value
    after the root's is printed in hexadecimal (`C67_hex_refuted`) and so is what the caller prints afterwards
    (`C68_hex_refuted`).  With 16 digits, the width of an address, the shift is by 64 bits: undefined.
24. **Filtered iterators**: `operator=` does not assign the predicate (`C71_*_refuted`); the inherited `go_*` moves do not
    look at it (`C70_*_refuted`) and return a reference to the unfiltered base.  The copy constructor takes a non-const
    reference, so a const filtered iterator cannot be copied and `std::reverse_iterator` cannot be used.
25. **Node base class**: `node::get_last_child() const` returns the first child (node.hpp 84-86); it is hidden by the
    derived classes' own, so only a call through the base class sees it.  No theorem.
26. **Stateful allocators**: move assignment takes over the other tree's allocator before releasing its own nodes, so they
    go to the wrong one (`C74_move_assign_refuted`); `swap` exchanges the nodes but not the allocators
    (`C74_swap_refuted`); a moved tree inserted into another keeps nodes of the first one's allocator
    (`C74_insert_move_refuted`); the copy constructor from another policy stores the other tree's allocator but creates
    the nodes with a default-constructed one (`C74_copy_policy_refuted`), and all constructors that create nodes use the
    allocator before it is constructed.  `get_allocator()` returns a member that is never set (`C75_refuted`).
27. **const is not thread safe**: `size()` and `arity()` are const but write `mutable` members without synchronization, and
    `==` calls them, so two threads reading a tree whose size is not stored race (`C76_race_refuted`).  Calling `size()`
    and `arity()` before sharing the tree avoids it (`C76_warm_partial`, `C76_no_race_partial`).
28. **Trees made from a smart pointer** believe any size and arity given with it (`C77_given_size_refuted`), and use a
    default-constructed allocator, not the one in the pointer's deleter (`C79_new_refuted`); assignment ignores it, too
    (`C79_assign_refuted`).
29. **Move constructors of nodes**: moving from a node that is not a root leaves its parent and siblings referring to the
    old, cleared node (`C78_inner_*_refuted`).  The value is copied, not moved (node.hpp 31-33 does not forward).
30. **Iterators without memory**: `++` and `--` of breadth_first and `++` of leaves change the queue or stack before the
    push that may throw; an iterator whose `++` threw skips subtrees afterwards, or visits leaves twice
    (`C80_*_refuted`).
31. **Insertions without memory for the queue**: insert_child_* and emplace_* make the iterator they return last: if the
    breadth-first queue gets no memory they throw although the child was added (`C81_insert_child_refuted`), and a moved
    tree then still owns the nodes that were linked into the other one (`C81_insert_child_move_refuted`).  insert_over
    releases the new nodes from their unique_ptr before `update` can throw, and leaks them
    (`C81_insert_over_leak_refuted`).  insert_over with a const_iterator does not compile
    (`craft_non_constant_iterator()` is called without its argument).
32. **A generative navigator going backwards**: get_prev_sibling and get_last_child never end when the nearest (for the
    last child: the two nearest) nodes fail the predicate (`C82_prev_hang_refuted`, `C82_last_hang_refuted`), and in n-ary
    trees what get_prev_sibling generates is appended at the end, in the wrong order (`C82_prev_order_refuted`).  The
    library itself only goes forward.
33. **A value that throws while a result is assigned** costs the memory of its node (`C84_leak_nary_refuted`,
    `C84_leak_binary_refuted`); everything else that was built is given back (`C83_nary`, `C83_binary`), unlike in the
    constructors of nodes (`C59_leak_refuted`).
34. **Reluctant stars leak when memory runs out**: multi_matcher.hpp 199 releases the nodes built so far before
    allocate_assign_parent allocates the parent; if that throws, they are lost (`C86_leak_nary_refuted`,
    `C86_leak_binary_refuted`).
35. **Pre-order over a generative navigator** ends early when the last child of a node it visits fails the predicate, as
    over `node_pred_navigator` (7): the rest of the copy is missing (`C87_early_refuted`, `C87_early_binary_refuted`).
