(** PropNode.v: navigation primitives, node queries, literals (C13, C36, C38).
    Statements only. *)
From Verif Require Import Base Spec EditSpec StructNode BinaryNode NaryNode Nav Policy Tree Rep User LitList IterTrees IterMain
  NodeFacts IterProofs NodeProofs Examples.

(** [row d u] are the subtrees at depth [d] of the tree, left to right. *)
Theorem C13_primitives_binary :
  forall (V : Type) (EV : EqDecision V) (F : nat) (h : gmap addr (bnode V)) (t : bin (addr * V)) (u : rose (addr * V)),
  bin_in h t -> bin_size t < F -> bin_forest t = [u] ->
  let nav := tree_nav (binary_impl V) h (baddr t) in
  (forall d P s Q, row d u = P ++ s :: Q ->
     get_other_branch nav F false (Some (raddr s)) = Ok (head (map raddr Q)) /\
     get_other_branch nav F true (Some (raddr s)) = Ok (last (map raddr P)) /\
     get_row_extremum nav F true (Some (raddr s)) = Ok (head (map raddr (P ++ s :: Q))) /\
     get_row_extremum nav F false (Some (raddr s)) = Ok (last (map raddr (P ++ s :: Q)))) /\
  get_deepest_extremum_child nav F true = Ok (head (map raddr (row (height u - 1) u))) /\
  get_deepest_extremum_child nav F false = Ok (last (map raddr (row (height u - 1) u))) /\
  get_highest_leaf nav F true = Ok (head (map fst (leaves u))) /\
  get_highest_leaf nav F false = Ok (last (map fst (leaves u))).
Proof. exact p_primitives_binary. Qed.
Print Assumptions C13_primitives_binary.

Theorem C13_primitives_nary :
  forall (V : Type) (EV : EqDecision V) (F : nat) (h : gmap addr (nnode V)) (u : rose (addr * V)),
  nary_in h u -> rsize u < F ->
  let nav := tree_nav (nary_impl V) h (Some (raddr u)) in
  (forall d P s Q, row d u = P ++ s :: Q ->
     get_other_branch nav F false (Some (raddr s)) = Ok (head (map raddr Q)) /\
     get_other_branch nav F true (Some (raddr s)) = Ok (last (map raddr P)) /\
     get_row_extremum nav F true (Some (raddr s)) = Ok (head (map raddr (P ++ s :: Q))) /\
     get_row_extremum nav F false (Some (raddr s)) = Ok (last (map raddr (P ++ s :: Q)))) /\
  get_deepest_extremum_child nav F true = Ok (head (map raddr (row (height u - 1) u))) /\
  get_deepest_extremum_child nav F false = Ok (last (map raddr (row (height u - 1) u))) /\
  get_highest_leaf nav F true = Ok (head (map fst (leaves u))) /\
  get_highest_leaf nav F false = Ok (last (map fst (leaves u))).
Proof. exact p_primitives_nary. Qed.
Print Assumptions C13_primitives_nary.

Example C13_used :
  get_other_branch (tree_nav (nary_impl nat) ex_nheap (Some 1%positive)) 100 false (Some 3%positive) = Ok (Some 4%positive) /\
  get_deepest_extremum_child (tree_nav (nary_impl nat) ex_nheap (Some 1%positive)) 100 false = Ok (Some 6%positive).
Proof.
  destruct (C13_primitives_nary nat _ 100 ex_nheap ex_nary ex_nary_in (proj2 ex_sizes)) as (H1 & _ & H3 & _). split.
  - exact (proj1 (H1 1 [Rose (2%positive, 20) []] (Rose (3%positive, 30) [Rose (5%positive, 50) []; Rose (6%positive, 60) []]) [Rose (4%positive, 40) []] eq_refl)).
  - exact H3.
Qed.

(** Every node of a tree is the root of a subtree, or a child of one: [t] ranges
    over the subtrees, the queried node is the root of [t] or a child of it. *)
Theorem C36_queries_binary :
  forall (V : Type) (h : gmap addr (bnode V)) (whole : bin (addr * V)),
  bin_at h whole ->
  (forall a v l r, bsubtree (BNode (a, v) l r) whole ->
     let cs := opt_list (fun x => [x]) (baddr l) ++ opt_list (fun x => [x]) (baddr r) in
     b_value h (Some a) = Ok v /\
     b_left h (Some a) = Ok (baddr l) /\ b_right h (Some a) = Ok (baddr r) /\
     b_first h (Some a) = Ok (head cs) /\ b_last h (Some a) = Ok (last cs) /\
     b_children h (Some a) = Ok (N.of_nat (length cs)) /\
     (forall i, b_child h (Some a) i = Ok (nth_error cs (N.to_nat i))) /\
     (forall x, baddr l = Some x ->
        b_parent h (Some x) = Ok (Some a) /\ b_is_left h (Some x) = Ok true /\ b_is_right h (Some x) = Ok false /\
        b_is_first h (Some x) = Ok true /\ b_is_last h (Some x) = Ok (is_null (baddr r)) /\
        b_prev h (Some x) = Ok None /\ b_next h (Some x) = Ok (baddr r) /\
        b_following_siblings h (Some x) = Ok (if is_null (baddr r) then 0 else 1)%N) /\
     (forall x, baddr r = Some x ->
        b_parent h (Some x) = Ok (Some a) /\ b_is_left h (Some x) = Ok false /\ b_is_right h (Some x) = Ok true /\
        b_is_first h (Some x) = Ok (is_null (baddr l)) /\ b_is_last h (Some x) = Ok true /\
        b_prev h (Some x) = Ok (baddr l) /\ b_next h (Some x) = Ok None /\
        b_following_siblings h (Some x) = Ok 0%N)) /\
  (forall a, baddr whole = Some a ->
     b_parent h (Some a) = Ok None /\ b_is_left h (Some a) = Ok false /\ b_is_right h (Some a) = Ok false /\
     b_is_first h (Some a) = Ok false /\ b_is_last h (Some a) = Ok false /\
     b_prev h (Some a) = Ok None /\ b_next h (Some a) = Ok None /\ b_following_siblings h (Some a) = Ok 0%N).
Proof. exact p_queries_binary. Qed.
Print Assumptions C36_queries_binary.

Theorem C36_queries_nary :
  forall (V : Type) (h : gmap addr (nnode V)) (whole : rose (addr * V)),
  nary_at h whole ->
  (forall a v cs, rsubtree (Rose (a, v) cs) whole -> (N.of_nat (length cs) < W64)%N ->
     n_val h (Some a) = Ok v /\
     n_first h (Some a) = Ok (head (map raddr cs)) /\ n_last h (Some a) = Ok (last (map raddr cs)) /\
     n_children h (Some a) = Ok (N.of_nat (length cs)) /\
     (forall i, n_child h (Some a) i = Ok (nth_error (map raddr cs) (N.to_nat i))) /\
     (forall ls x rs, cs = ls ++ x :: rs ->
        n_parent h (Some (raddr x)) = Ok (Some a) /\
        n_prev h (Some (raddr x)) = Ok (last (map raddr ls)) /\ n_next h (Some (raddr x)) = Ok (head (map raddr rs)) /\
        n_is_first h (Some (raddr x)) = Ok (bool_decide (ls = [])) /\ n_is_last h (Some (raddr x)) = Ok (bool_decide (rs = [])) /\
        n_following_siblings h (Some (raddr x)) = Ok (N.of_nat (length rs)))) /\
  n_parent h (Some (raddr whole)) = Ok None /\ n_prev h (Some (raddr whole)) = Ok None /\
  n_next h (Some (raddr whole)) = Ok None /\ n_is_first h (Some (raddr whole)) = Ok false /\
  n_is_last h (Some (raddr whole)) = Ok false /\ n_following_siblings h (Some (raddr whole)) = Ok 0%N.
Proof. exact p_queries_nary. Qed.
Print Assumptions C36_queries_nary.

Example C36_used : b_is_first ex_bheap (Some 4%positive) = Ok true /\ n_child ex_nheap (Some 1%positive) 2 = Ok (Some 4%positive).
Proof.
  split.
  - destruct (C36_queries_binary nat ex_bheap ex_bin ex_bin_at) as [H _].
    destruct (H _ _ _ _ ex_bsub_ok) as (_ & _ & _ & _ & _ & _ & _ & _ & Hr).
    destruct (Hr 4%positive eq_refl) as (_ & _ & _ & Hx & _). exact Hx.
  - destruct (C36_queries_nary nat ex_nheap ex_nary ex_nary_at) as [H _].
    destruct (H 1%positive 10 (children ex_nary) (rsub_here _)) as (_ & _ & _ & _ & Hc & _); [vm_compute; reflexivity|].
    exact (Hc 2%N).
Qed.

(** [eval_lit t] is what the expression [t] evaluates to. *)
Theorem C38_literals :
  forall (V : Type) (t : lit V),
  s_listing (eval_lit t) = lit_listing 0 0 t /\
  subtree_size (eval_lit t) = N.of_nat (list_sum (map rsize (lit_rose t))) /\
  subtree_arity (eval_lit t) = N.of_nat (list_max (map rarity (lit_rose t))).
Proof. exact @p_literals. Qed.
Print Assumptions C38_literals.

Theorem C38_literal_children :
  forall (V : Type) (v : V) (cs : list (lit V)),
  s_children (eval_lit (LNode v cs)) = N.of_nat (length (flat_map lit_rose cs)).
Proof. exact @p_literal_children. Qed.
Print Assumptions C38_literal_children.

(** [n(1)(n(), n(2)(n(3)), n(4))] *)
Example C38_used :
  s_listing (eval_lit (LNode 1 [LEmpty; LNode 2 [LNode 3 []]; LNode 4 []])) =
    [(Some 1, 0%N, 0%N); (None, 1%N, 0%N); (Some 2, 1%N, 1%N); (Some 3, 2%N, 0%N); (Some 4, 1%N, 2%N)].
Proof. exact (proj1 (C38_literals nat (LNode 1 [LEmpty; LNode 2 [LNode 3 []]; LNode 4 []]))). Qed.
