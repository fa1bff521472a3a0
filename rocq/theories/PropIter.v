(** PropIter.v: the iteration properties (C01-C12, C14, C39).  Statements only:
    each theorem is closed by a lemma proved elsewhere.  The vocabulary is that
    of Spec.v (trees and orders), Rep.v ([bin_in h t] / [nary_in h t]: the tree
    [t] is stored in the heap [h], as a whole tree or as a subtree of a larger
    one) and User.v (the loops a user writes).  [F] is the number of steps
    granted to each loop: a result [Ok] means that every loop ended within it
    and that nothing null or released was dereferenced. *)
From Verif Require Import Base Spec EditSpec StructNode BinaryNode NaryNode Nav Policy Tree Rep User IterTrees IterMain
  NodeFacts SibFacts IterProofs Examples.

Theorem C01_preorder_binary :
  forall (V : Type) (EV : EqDecision V) (F : nat) (h : gmap addr (bnode V)) (t : bin (addr * V)),
  bin_in h t -> bin_size t < F ->
  iterate F (binary_impl V) h PreOrder (baddr t) = Ok (flat_map preorder (bin_forest t)).
Proof. exact p_preorder_binary. Qed.
Print Assumptions C01_preorder_binary.

Theorem C01_preorder_nary :
  forall (V : Type) (EV : EqDecision V) (F : nat) (h : gmap addr (nnode V)) (t : option (rose (addr * V))),
  onary_in h t -> nsize t < F ->
  iterate F (nary_impl V) h PreOrder (nroot t) = Ok (opt_list preorder t).
Proof. exact p_preorder_nary. Qed.
Print Assumptions C01_preorder_nary.

Example C01_used :
  iterate 100 (binary_impl nat) ex_bheap PreOrder (baddr ex_bin) = Ok [(1%positive, 10); (2%positive, 20); (4%positive, 40); (5%positive, 50); (3%positive, 30)] /\
  iterate 100 (nary_impl nat) ex_nheap PreOrder (nroot (Some ex_nary)) = Ok [(1%positive, 10); (2%positive, 20); (3%positive, 30); (5%positive, 50); (6%positive, 60); (4%positive, 40)].
Proof.
  split; [exact (C01_preorder_binary _ _ _ _ _ ex_bin_in (proj1 ex_sizes))|exact (C01_preorder_nary _ _ _ _ _ ex_nary_in (proj2 ex_sizes))].
Qed.

Theorem C02_postorder_binary :
  forall (V : Type) (EV : EqDecision V) (F : nat) (h : gmap addr (bnode V)) (t : bin (addr * V)),
  bin_in h t -> bin_size t < F ->
  iterate F (binary_impl V) h PostOrder (baddr t) = Ok (flat_map postorder (bin_forest t)).
Proof. exact p_postorder_binary. Qed.
Print Assumptions C02_postorder_binary.

Theorem C02_postorder_nary :
  forall (V : Type) (EV : EqDecision V) (F : nat) (h : gmap addr (nnode V)) (t : option (rose (addr * V))),
  onary_in h t -> nsize t < F ->
  iterate F (nary_impl V) h PostOrder (nroot t) = Ok (opt_list postorder t).
Proof. exact p_postorder_nary. Qed.
Print Assumptions C02_postorder_nary.

Example C02_used :
  iterate 100 (binary_impl nat) ex_bheap PostOrder (baddr ex_bin) = Ok [(5%positive, 50); (4%positive, 40); (2%positive, 20); (3%positive, 30); (1%positive, 10)] /\
  iterate 100 (nary_impl nat) ex_nheap PostOrder (nroot (Some ex_nary)) = Ok [(2%positive, 20); (5%positive, 50); (6%positive, 60); (3%positive, 30); (4%positive, 40); (1%positive, 10)].
Proof.
  split; [exact (C02_postorder_binary _ _ _ _ _ ex_bin_in (proj1 ex_sizes))|exact (C02_postorder_nary _ _ _ _ _ ex_nary_in (proj2 ex_sizes))].
Qed.

Theorem C04_breadth_first_binary :
  forall (V : Type) (EV : EqDecision V) (F : nat) (h : gmap addr (bnode V)) (t : bin (addr * V)),
  bin_in h t -> bin_size t < F ->
  iterate F (binary_impl V) h BreadthFirst (baddr t) = Ok (flat_map levelorder (bin_forest t)).
Proof. exact p_breadth_first_binary. Qed.
Print Assumptions C04_breadth_first_binary.

Theorem C04_breadth_first_nary :
  forall (V : Type) (EV : EqDecision V) (F : nat) (h : gmap addr (nnode V)) (t : option (rose (addr * V))),
  onary_in h t -> nsize t < F ->
  iterate F (nary_impl V) h BreadthFirst (nroot t) = Ok (opt_list levelorder t).
Proof. exact p_breadth_first_nary. Qed.
Print Assumptions C04_breadth_first_nary.

Example C04_used :
  iterate 100 (binary_impl nat) ex_bheap BreadthFirst (baddr ex_bin) = Ok [(1%positive, 10); (2%positive, 20); (3%positive, 30); (4%positive, 40); (5%positive, 50)] /\
  iterate 100 (nary_impl nat) ex_nheap BreadthFirst (nroot (Some ex_nary)) = Ok [(1%positive, 10); (2%positive, 20); (3%positive, 30); (4%positive, 40); (5%positive, 50); (6%positive, 60)].
Proof.
  split; [exact (C04_breadth_first_binary _ _ _ _ _ ex_bin_in (proj1 ex_sizes))|exact (C04_breadth_first_nary _ _ _ _ _ ex_nary_in (proj2 ex_sizes))].
Qed.

Theorem C05_leaves_binary :
  forall (V : Type) (EV : EqDecision V) (F : nat) (h : gmap addr (bnode V)) (t : bin (addr * V)),
  bin_in h t -> bin_size t < F ->
  iterate F (binary_impl V) h Leaves (baddr t) = Ok (flat_map leaves (bin_forest t)).
Proof. exact p_leaves_binary. Qed.
Print Assumptions C05_leaves_binary.

Theorem C05_leaves_nary :
  forall (V : Type) (EV : EqDecision V) (F : nat) (h : gmap addr (nnode V)) (t : option (rose (addr * V))),
  onary_in h t -> nsize t < F ->
  iterate F (nary_impl V) h Leaves (nroot t) = Ok (opt_list leaves t).
Proof. exact p_leaves_nary. Qed.
Print Assumptions C05_leaves_nary.

Example C05_used :
  iterate 100 (binary_impl nat) ex_bheap Leaves (baddr ex_bin) = Ok [(5%positive, 50); (3%positive, 30)] /\
  iterate 100 (nary_impl nat) ex_nheap Leaves (nroot (Some ex_nary)) = Ok [(2%positive, 20); (5%positive, 50); (6%positive, 60); (4%positive, 40)].
Proof.
  split; [exact (C05_leaves_binary _ _ _ _ _ ex_bin_in (proj1 ex_sizes))|exact (C05_leaves_nary _ _ _ _ _ ex_nary_in (proj2 ex_sizes))].
Qed.

Theorem C03_inorder_binary :
  forall (V : Type) (EV : EqDecision V) (F : nat) (h : gmap addr (bnode V)) (t : bin (addr * V)),
  bin_in h t -> bin_size t < F ->
  iterate F (binary_impl V) h InOrder (baddr t) = Ok (inorder t).
Proof. exact p_inorder_binary. Qed.
Print Assumptions C03_inorder_binary.

Example C03_used :
  iterate 100 (binary_impl nat) ex_bheap InOrder (baddr ex_bin) = Ok [(2%positive, 20); (5%positive, 50); (4%positive, 40); (1%positive, 10); (3%positive, 30)].
Proof. exact (C03_inorder_binary _ _ _ _ _ ex_bin_in (proj1 ex_sizes)). Qed.

(** Each order lists every element exactly once (the leaves: every childless one). *)
Theorem C01_C04_orders_complete :
  forall (A : Type) (t : rose A) (b : bin A),
  Permutation (postorder t) (preorder t) /\ Permutation (levelorder t) (preorder t) /\
  Permutation (inorder b) (bin_labels b) /\ Permutation (flat_map preorder (bin_forest b)) (bin_labels b) /\
  (forall x, x ∈ leaves t <-> exists s, rsubtree s t /\ children s = [] /\ label s = x).
Proof. exact p_orders_complete. Qed.
Print Assumptions C01_C04_orders_complete.

Theorem C07_reverse_binary :
  forall (V : Type) (EV : EqDecision V) (F : nat) (h : gmap addr (bnode V)) (t : bin (addr * V)) (k : kind),
  bin_in h t -> bin_size t < F -> two_way_bin k ->
  iterate F (binary_impl V) h k (baddr t) = Ok (bin_order k t) /\
  iterate_back F (binary_impl V) h k (baddr t) = Ok (rev (bin_order k t)).
Proof. exact p_reverse_binary. Qed.
Print Assumptions C07_reverse_binary.

Example C07_used_binary : exists l, length l = 5 /\ iterate_back 100 (binary_impl nat) ex_bheap InOrder (baddr ex_bin) = Ok (rev l).
Proof. eexists. split; [|exact (proj2 (C07_reverse_binary _ _ _ _ _ InOrder ex_bin_in (proj1 ex_sizes) (or_introl eq_refl)))]. reflexivity. Qed.

Theorem C08_moves_binary :
  forall (V : Type) (EV : EqDecision V) (F : nat) (h : gmap addr (bnode V)) (t : bin (addr * V)) (k : kind) (ms : list bool) (i j : nat),
  bin_in h t -> bin_size t < F -> two_way_bin k ->
  i <= length (bin_order k t) -> position (length (bin_order k t)) ms i = Some j ->
  exists it it' it2,
    iterator_at F (binary_impl V) h k (nth_addr (bin_order k t) i) (baddr t) = Ok it /\
    run F (binary_impl V) h ms it = Ok it' /\ it_cur it' = nth_addr (bin_order k t) j /\
    iterator_at F (binary_impl V) h k (nth_addr (bin_order k t) j) (baddr t) = Ok it2 /\ same_iter it' it2 /\
    (j < length (bin_order k t) -> exists x, incr F (binary_impl V) h it' = Ok x /\ decr F (binary_impl V) h x = Ok it') /\
    (0 < j -> exists x, decr F (binary_impl V) h it' = Ok x /\ incr F (binary_impl V) h x = Ok it').
Proof. exact p_moves_binary. Qed.
Print Assumptions C08_moves_binary.

Example C08_used_binary : position 5 [true; true; true; false; true; false] 0 = Some 2.
Proof. reflexivity. Qed.

Theorem C09_reach_binary :
  forall (V : Type) (EV : EqDecision V) (F : nat) (h : gmap addr (bnode V)) (t : bin (addr * V)) (k : kind) (i : nat),
  bin_in h t -> bin_size t < F -> two_way_bin k -> i <= length (bin_order k t) ->
  exists b it it2,
    tree_begin F (tree_nav (binary_impl V) h) k (baddr t) = Ok b /\ run F (binary_impl V) h (repeat true i) b = Ok it /\
    iterator_at F (binary_impl V) h k (nth_addr (bin_order k t) i) (baddr t) = Ok it2 /\ it_cur it = nth_addr (bin_order k t) i /\ it_cur it2 = it_cur it /\
    (forall ms, same_res (run F (binary_impl V) h ms it) (run F (binary_impl V) h ms it2)).
Proof. exact p_reach_binary. Qed.
Print Assumptions C09_reach_binary.

Example C09_used_binary : two_way_bin BreadthFirst /\ 3 <= length (bin_order BreadthFirst ex_bin).
Proof. split; [unfold two_way_bin, two_way_nary; tauto|vm_compute; lia]. Qed.

Theorem C10_change_policy_binary :
  forall (V : Type) (EV : EqDecision V) (F : nat) (h : gmap addr (bnode V)) (t : bin (addr * V)) (k : kind) (it0 : iter) (l1 l2 : list (addr * V)) (x : addr * V),
  bin_in h t -> bin_size t < F -> two_way_bin k ->
  bin_order k t = l1 ++ x :: l2 -> it_cur it0 = Some (fst x) -> it_root it0 = baddr t ->
  exists it, it_other_policy F (tree_nav (binary_impl V) h) it0 k = Ok it /\ it_kind it = k /\ it_cur it = it_cur it0 /\
    iterate_from F (binary_impl V) h it k (baddr t) = Ok (x :: l2).
Proof. exact p_change_policy_binary. Qed.
Print Assumptions C10_change_policy_binary.

Example C10_used_binary :
  exists it0, iterator_at 100 (binary_impl nat) ex_bheap PreOrder (Some 4%positive) (baddr ex_bin) = Ok it0 /\
    it_cur it0 = Some 4%positive /\ it_root it0 = baddr ex_bin /\
    bin_order BreadthFirst ex_bin = [(1%positive, 10); (2%positive, 20); (3%positive, 30)] ++ (4%positive, 40) :: [(5%positive, 50)].
Proof. eexists. repeat split. Qed.

Theorem C11_ends_binary :
  forall (V : Type) (EV : EqDecision V) (F : nat) (h : gmap addr (bnode V)) (t : bin (addr * V)) (k : kind),
  bin_in h t -> bin_size t < F -> two_way_bin k ->
  exists b e, tree_begin F (tree_nav (binary_impl V) h) k (baddr t) = Ok b /\ tree_end F (tree_nav (binary_impl V) h) k (baddr t) = Ok e /\
    it_eqb b e = is_null (baddr t) /\ it_cur e = None /\
    (exists b', incr F (binary_impl V) h e = Ok b' /\ same_iter b' b) /\
    (exists x, decr F (binary_impl V) h e = Ok x /\ it_cur x = last (map fst (bin_order k t))).
Proof. exact p_ends_binary. Qed.
Print Assumptions C11_ends_binary.

Theorem C14_filtered_binary :
  forall (V : Type) (EV : EqDecision V) (F : nat) (h : gmap addr (bnode V)) (t : bin (addr * V)) (k : kind) (p : V -> bool),
  bin_in h t -> bin_size t < F -> two_way_bin k \/ k = Leaves ->
  iterate_filtered F (binary_impl V) h p k (baddr t) = Ok (List.filter (fun x => p (snd x)) (bin_order k t)).
Proof. exact p_filtered_binary. Qed.
Print Assumptions C14_filtered_binary.

Example C14_used_binary : exists l, iterate_filtered 100 (binary_impl nat) ex_bheap (fun v => Nat.ltb 25 v) InOrder (baddr ex_bin) = Ok l /\ 2 <= length l.
Proof. eexists. split; [exact (C14_filtered_binary _ _ _ _ _ InOrder _ ex_bin_in (proj1 ex_sizes) (or_introl (or_introl eq_refl)))|vm_compute; lia]. Qed.

Theorem C07_reverse_nary :
  forall (V : Type) (EV : EqDecision V) (F : nat) (h : gmap addr (nnode V)) (t : option (rose (addr * V))) (k : kind),
  onary_in h t -> nsize t < F -> two_way_nary k ->
  iterate F (nary_impl V) h k (nroot t) = Ok (nary_order k t) /\
  iterate_back F (nary_impl V) h k (nroot t) = Ok (rev (nary_order k t)).
Proof. exact p_reverse_nary. Qed.
Print Assumptions C07_reverse_nary.

Example C07_used_nary : exists l, length l = 6 /\ iterate_back 100 (nary_impl nat) ex_nheap BreadthFirst (nroot (Some ex_nary)) = Ok (rev l).
Proof. eexists. split; [|exact (proj2 (C07_reverse_nary _ _ _ _ _ BreadthFirst ex_nary_in (proj2 ex_sizes) (or_intror (or_intror eq_refl))))]. reflexivity. Qed.

Theorem C08_moves_nary :
  forall (V : Type) (EV : EqDecision V) (F : nat) (h : gmap addr (nnode V)) (t : option (rose (addr * V))) (k : kind) (ms : list bool) (i j : nat),
  onary_in h t -> nsize t < F -> two_way_nary k ->
  i <= length (nary_order k t) -> position (length (nary_order k t)) ms i = Some j ->
  exists it it' it2,
    iterator_at F (nary_impl V) h k (nth_addr (nary_order k t) i) (nroot t) = Ok it /\
    run F (nary_impl V) h ms it = Ok it' /\ it_cur it' = nth_addr (nary_order k t) j /\
    iterator_at F (nary_impl V) h k (nth_addr (nary_order k t) j) (nroot t) = Ok it2 /\ same_iter it' it2 /\
    (j < length (nary_order k t) -> exists x, incr F (nary_impl V) h it' = Ok x /\ decr F (nary_impl V) h x = Ok it') /\
    (0 < j -> exists x, decr F (nary_impl V) h it' = Ok x /\ incr F (nary_impl V) h x = Ok it').
Proof. exact p_moves_nary. Qed.
Print Assumptions C08_moves_nary.

Theorem C09_reach_nary :
  forall (V : Type) (EV : EqDecision V) (F : nat) (h : gmap addr (nnode V)) (t : option (rose (addr * V))) (k : kind) (i : nat),
  onary_in h t -> nsize t < F -> two_way_nary k -> i <= length (nary_order k t) ->
  exists b it it2,
    tree_begin F (tree_nav (nary_impl V) h) k (nroot t) = Ok b /\ run F (nary_impl V) h (repeat true i) b = Ok it /\
    iterator_at F (nary_impl V) h k (nth_addr (nary_order k t) i) (nroot t) = Ok it2 /\ it_cur it = nth_addr (nary_order k t) i /\ it_cur it2 = it_cur it /\
    (forall ms, same_res (run F (nary_impl V) h ms it) (run F (nary_impl V) h ms it2)).
Proof. exact p_reach_nary. Qed.
Print Assumptions C09_reach_nary.

Example C09_used_nary : two_way_nary BreadthFirst /\ 3 <= length (nary_order BreadthFirst (Some ex_nary)).
Proof. split; [unfold two_way_bin, two_way_nary; tauto|vm_compute; lia]. Qed.

Theorem C10_change_policy_nary :
  forall (V : Type) (EV : EqDecision V) (F : nat) (h : gmap addr (nnode V)) (t : option (rose (addr * V))) (k : kind) (it0 : iter) (l1 l2 : list (addr * V)) (x : addr * V),
  onary_in h t -> nsize t < F -> two_way_nary k ->
  nary_order k t = l1 ++ x :: l2 -> it_cur it0 = Some (fst x) -> it_root it0 = nroot t ->
  exists it, it_other_policy F (tree_nav (nary_impl V) h) it0 k = Ok it /\ it_kind it = k /\ it_cur it = it_cur it0 /\
    iterate_from F (nary_impl V) h it k (nroot t) = Ok (x :: l2).
Proof. exact p_change_policy_nary. Qed.
Print Assumptions C10_change_policy_nary.

Theorem C11_ends_nary :
  forall (V : Type) (EV : EqDecision V) (F : nat) (h : gmap addr (nnode V)) (t : option (rose (addr * V))) (k : kind),
  onary_in h t -> nsize t < F -> two_way_nary k ->
  exists b e, tree_begin F (tree_nav (nary_impl V) h) k (nroot t) = Ok b /\ tree_end F (tree_nav (nary_impl V) h) k (nroot t) = Ok e /\
    it_eqb b e = is_null (nroot t) /\ it_cur e = None /\
    (exists b', incr F (nary_impl V) h e = Ok b' /\ same_iter b' b) /\
    (exists x, decr F (nary_impl V) h e = Ok x /\ it_cur x = last (map fst (nary_order k t))).
Proof. exact p_ends_nary. Qed.
Print Assumptions C11_ends_nary.

Theorem C14_filtered_nary :
  forall (V : Type) (EV : EqDecision V) (F : nat) (h : gmap addr (nnode V)) (t : option (rose (addr * V))) (k : kind) (p : V -> bool),
  onary_in h t -> nsize t < F -> two_way_nary k \/ k = Leaves ->
  iterate_filtered F (nary_impl V) h p k (nroot t) = Ok (List.filter (fun x => p (snd x)) (nary_order k t)).
Proof. exact p_filtered_nary. Qed.
Print Assumptions C14_filtered_nary.

Example C14_used_nary : exists l, iterate_filtered 100 (nary_impl nat) ex_nheap (fun v => Nat.ltb 25 v) BreadthFirst (nroot (Some ex_nary)) = Ok l /\ 2 <= length l.
Proof. eexists. split; [exact (C14_filtered_nary _ _ _ _ _ BreadthFirst _ ex_nary_in (proj2 ex_sizes) (or_introl (or_intror (or_intror eq_refl))))|vm_compute; lia]. Qed.

Theorem C06_siblings_binary :
  forall (V : Type) (EV : EqDecision V) (F : nat) (h : gmap addr (bnode V)) (t : bin (addr * V)) (u s : rose (addr * V)) (i : nat),
  bin_in h t -> bin_size t < F -> bin_forest t = [u] -> rsubtree s u -> i < length (children s) ->
  exists it, iterator_at F (binary_impl V) h Siblings (nth_addr (map label (children s)) i) (baddr t) = Ok it /\
    iterate_from F (binary_impl V) h it Siblings (baddr t) = Ok (skipn i (map label (children s))) /\
    (forall j, j <= i -> exists it', run F (binary_impl V) h (repeat false j) it = Ok it' /\
                                     it_cur it' = nth_addr (map label (children s)) (i - j)) /\
    (exists e, run F (binary_impl V) h (repeat false (S i)) it = Ok e /\ it_cur e = None).
Proof. exact p_siblings_binary. Qed.
Print Assumptions C06_siblings_binary.

Theorem C06_siblings_nary :
  forall (V : Type) (EV : EqDecision V) (F : nat) (h : gmap addr (nnode V)) (t s : rose (addr * V)) (i : nat),
  nary_in h t -> rsize t < F -> rsubtree s t -> i < length (children s) ->
  exists it, iterator_at F (nary_impl V) h Siblings (nth_addr (map label (children s)) i) (Some (raddr t)) = Ok it /\
    iterate_from F (nary_impl V) h it Siblings (Some (raddr t)) = Ok (skipn i (map label (children s))) /\
    (forall j, j <= i -> exists it', run F (nary_impl V) h (repeat false j) it = Ok it' /\
                                     it_cur it' = nth_addr (map label (children s)) (i - j)) /\
    (exists e, run F (nary_impl V) h (repeat false (S i)) it = Ok e /\ it_cur e = None).
Proof. exact p_siblings_nary. Qed.
Print Assumptions C06_siblings_nary.

Example C06_used : rsubtree ex_nsub ex_nary /\ 1 < length (children ex_nsub).
Proof. split; [exact ex_nsub_ok|cbn; lia]. Qed.

(** begin(siblings()) ... end(siblings()) of a tree, in both directions, is the
    list of the children of its root. *)
Theorem C06_siblings_range_binary :
  forall (V : Type) (EV : EqDecision V) (F : nat) (h : gmap addr (bnode V)) (t : bin (addr * V)) (u : rose (addr * V)),
  bin_in h t -> bin_size t < F -> bin_forest t = [u] ->
  iterate F (binary_impl V) h Siblings (baddr t) = Ok (map label (children u)) /\
  iterate_back F (binary_impl V) h Siblings (baddr t) = Ok (rev (map label (children u))).
Proof. exact p_siblings_range_binary. Qed.
Print Assumptions C06_siblings_range_binary.
Theorem C06_siblings_range_nary :
  forall (V : Type) (EV : EqDecision V) (F : nat) (h : gmap addr (nnode V)) (t : rose (addr * V)),
  nary_in h t -> rsize t < F ->
  iterate F (nary_impl V) h Siblings (Some (raddr t)) = Ok (map label (children t)) /\
  iterate_back F (nary_impl V) h Siblings (Some (raddr t)) = Ok (rev (map label (children t))).
Proof. exact p_siblings_range_nary. Qed.
Print Assumptions C06_siblings_range_nary.
(** A policy instance made at a node, with a navigator that has no root yet:
    whatever the sequence of [++] and [--], it stays among the siblings of that
    node and its end ([position], User.v: from the end, [++] leads to the first
    and [--] to the last). *)
Theorem C06_siblings_alone_binary :
  forall (V : Type) (EV : EqDecision V) (F : nat) (h : gmap addr (bnode V)) (t s : bin (addr * V)) (u : rose (addr * V)) (i : nat) (ms : list bool) (j : nat),
  bin_in h t -> bsubtree s t -> bin_forest s = [u] -> bin_size s < F -> i < length (children u) ->
  position (length (children u)) ms i = Some j ->
  exists it it', iterator_at F (binary_impl V) h Siblings (nth_addr (map label (children u)) i) None = Ok it /\
    run F (binary_impl V) h ms it = Ok it' /\ it_cur it' = nth_addr (map label (children u)) j.
Proof. exact p_siblings_alone_binary. Qed.
Print Assumptions C06_siblings_alone_binary.
Theorem C06_siblings_alone_nary :
  forall (V : Type) (EV : EqDecision V) (F : nat) (h : gmap addr (nnode V)) (t s : rose (addr * V)) (i : nat) (ms : list bool) (j : nat),
  nary_in h t -> rsubtree s t -> rsize s < F -> i < length (children s) ->
  position (length (children s)) ms i = Some j ->
  exists it it', iterator_at F (nary_impl V) h Siblings (nth_addr (map label (children s)) i) None = Ok it /\
    run F (nary_impl V) h ms it = Ok it' /\ it_cur it' = nth_addr (map label (children s)) j.
Proof. exact p_siblings_alone_nary. Qed.
Print Assumptions C06_siblings_alone_nary.
Example C06_used_alone : exists it it', iterator_at 100 (nary_impl nat) ex_nheap Siblings (Some 3%positive) None = Ok it /\
  run 100 (nary_impl nat) ex_nheap [true; true; false; false] it = Ok it' /\ it_cur it' = Some 3%positive.
Proof.
  destruct (C06_siblings_alone_nary nat _ 100 ex_nheap ex_nary ex_nary 1 [true; true; false; false] 1 ex_nary_in (rsub_here _)) as (it & it' & H1 & H2 & H3);
    [vm_compute; lia|vm_compute; lia|reflexivity|]. exists it, it'. auto.
Qed.

Theorem C06_siblings_root :
  forall (V : Type) (EV : EqDecision V) (F : nat),
  (forall (h : gmap addr (bnode V)) (t : bin (addr * V)) a, bin_in h t -> baddr t = Some a ->
     exists it e e', iterator_at F (binary_impl V) h Siblings (Some a) (Some a) = Ok it /\
       incr F (binary_impl V) h it = Ok e /\ it_cur e = None /\ decr F (binary_impl V) h it = Ok e' /\ it_cur e' = None) /\
  (forall (h : gmap addr (nnode V)) (t : rose (addr * V)), nary_in h t ->
     exists it e e', iterator_at F (nary_impl V) h Siblings (Some (raddr t)) (Some (raddr t)) = Ok it /\
       incr F (nary_impl V) h it = Ok e /\ it_cur e = None /\ decr F (nary_impl V) h it = Ok e' /\ it_cur e' = None).
Proof. exact p_siblings_root. Qed.
Print Assumptions C06_siblings_root.

Theorem C06_fixed :
  forall (V Nd : Type) (F : nat) (im : node_impl V Nd) (h : gmap addr Nd) (a r : addr),
  exists it e e', iterator_at F im h Fixed (Some a) (Some r) = Ok it /\ it_cur it = Some a /\
    incr F im h it = Ok e /\ it_cur e = None /\ decr F im h it = Ok e' /\ it_cur e' = None.
Proof. exact p_fixed. Qed.
Print Assumptions C06_fixed.

Theorem C12_views_binary :
  forall (V : Type) (EV : EqDecision V) (F : nat) (h : gmap addr (bnode V)) (t s : bin (addr * V)) (rec : tree_rec) (pos : iter) (k : kind),
  bin_at h t -> bsubtree s t -> bin_size s < F -> it_cur pos = baddr s ->
  two_way_bin k \/ k = Leaves ->
  iterate F (binary_impl V) h k (t_nav (view_of rec pos)) = Ok (bin_order k s).
Proof. exact p_views_binary. Qed.
Print Assumptions C12_views_binary.

Example C12_used_binary : bsubtree ex_bsub ex_bin /\ baddr ex_bsub = Some 2%positive /\ bin_size ex_bsub < 100.
Proof. split; [exact ex_bsub_ok|]. vm_compute. split; [reflexivity|lia]. Qed.

Theorem C12_views_back_binary :
  forall (V : Type) (EV : EqDecision V) (F : nat) (h : gmap addr (bnode V)) (t s : bin (addr * V)) (rec : tree_rec) (pos : iter) (k : kind),
  bin_at h t -> bsubtree s t -> bin_size s < F -> it_cur pos = baddr s -> two_way_bin k ->
  iterate_back F (binary_impl V) h k (t_nav (view_of rec pos)) = Ok (rev (bin_order k s)).
Proof. exact p_views_back_binary. Qed.
Print Assumptions C12_views_back_binary.

Theorem C12_views_nary :
  forall (V : Type) (EV : EqDecision V) (F : nat) (h : gmap addr (nnode V)) (t s : rose (addr * V)) (rec : tree_rec) (pos : iter) (k : kind),
  nary_at h t -> rsubtree s t -> rsize s < F -> it_cur pos = Some (raddr s) ->
  two_way_nary k \/ k = Leaves ->
  iterate F (nary_impl V) h k (t_nav (view_of rec pos)) = Ok (rose_order k s).
Proof. exact p_views_nary. Qed.
Print Assumptions C12_views_nary.

Example C12_used_nary : rsubtree ex_nsub ex_nary /\ rsize ex_nsub < 100.
Proof. split; [exact ex_nsub_ok|]. vm_compute. lia. Qed.

Theorem C12_views_back_nary :
  forall (V : Type) (EV : EqDecision V) (F : nat) (h : gmap addr (nnode V)) (t s : rose (addr * V)) (rec : tree_rec) (pos : iter) (k : kind),
  nary_at h t -> rsubtree s t -> rsize s < F -> it_cur pos = Some (raddr s) -> two_way_nary k ->
  iterate_back F (nary_impl V) h k (t_nav (view_of rec pos)) = Ok (rev (rose_order k s)).
Proof. exact p_views_back_nary. Qed.
Print Assumptions C12_views_back_nary.

Theorem C39_iterator_equality :
  forall a b : iter, it_eqb a b = true <-> it_cur a = it_cur b /\ it_root a = it_root b.
Proof. exact p_iterator_equality. Qed.
Print Assumptions C39_iterator_equality.
