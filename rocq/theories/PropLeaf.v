(** PropLeaf.v: C15, leaves iterators moved both ways. *)
From Verif Require Import Base Spec EditSpec StructNode BinaryNode NaryNode Nav Policy Tree Rep User IterTrees IterMain
  LeafIter Examples.

(** Going backwards is right: the reverse loop visits the leaves in reverse
    order, and [--] from any leaves iterator standing at the [i]-th leaf (or at
    the end), whatever path led there, reaches the leaf [n] places before; one
    [++] after that is right too.  Missing from C15: further [++] after a [--]
    (which the refutations below show to be wrong). *)
Theorem C15_backwards_binary_partial :
  forall (V : Type) (EV : EqDecision V) (F : nat) (h : gmap addr (bnode V)) (t : bin (addr * V)),
  bin_in h t -> bin_size t < F ->
  iterate_back F (binary_impl V) h Leaves (baddr t) = Ok (rev (flat_map leaves (bin_forest t))) /\
  forall (n i : nat) (it : iter), n <= i -> i <= length (flat_map leaves (bin_forest t)) ->
    it_kind it = Leaves -> it_cur it = nth_addr (flat_map leaves (bin_forest t)) i -> it_root it = baddr t ->
    exists it', run F (binary_impl V) h (repeat false n) it = Ok it' /\
      it_cur it' = nth_addr (flat_map leaves (bin_forest t)) (i - n) /\
      (0 < n -> exists it2, incr F (binary_impl V) h it' = Ok it2 /\ it_cur it2 = nth_addr (flat_map leaves (bin_forest t)) (S (i - n))).
Proof.
  intros V EV F h t Ht HF. pose proof (bin_leaf_ok F h t Ht HF) as Hok.
  split; [apply (leaf_back_ok _ _ _ _ _ Hok)|]. intros n i it. apply (leaf_run_back_ok _ _ _ _ _ n i it Hok).
Qed.
Print Assumptions C15_backwards_binary_partial.

Theorem C15_backwards_nary_partial :
  forall (V : Type) (EV : EqDecision V) (F : nat) (h : gmap addr (nnode V)) (t : option (rose (addr * V))),
  onary_in h t -> nsize t < F ->
  iterate_back F (nary_impl V) h Leaves (nroot t) = Ok (rev (opt_list leaves t)) /\
  forall (n i : nat) (it : iter), n <= i -> i <= length (opt_list leaves t) ->
    it_kind it = Leaves -> it_cur it = nth_addr (opt_list leaves t) i -> it_root it = nroot t ->
    exists it', run F (nary_impl V) h (repeat false n) it = Ok it' /\
      it_cur it' = nth_addr (opt_list leaves t) (i - n) /\
      (0 < n -> exists it2, incr F (nary_impl V) h it' = Ok it2 /\ it_cur it2 = nth_addr (opt_list leaves t) (S (i - n))).
Proof.
  intros V EV F h t Ht HF. pose proof (nary_leaf_ok F h t Ht HF) as Hok.
  split; [apply (leaf_back_ok _ _ _ _ _ Hok)|]. intros n i it. apply (leaf_run_back_ok _ _ _ _ _ n i it Hok).
Qed.
Print Assumptions C15_backwards_nary_partial.

(** From begin: any number of [++], then any number of [--], then at most one [++]. *)
Theorem C15_forth_and_back_partial :
  forall (V : Type) (EV : EqDecision V) (F : nat) (m n : nat),
  (forall (h : gmap addr (bnode V)) (t : bin (addr * V)),
     bin_in h t -> bin_size t < F -> m <= length (flat_map leaves (bin_forest t)) -> n <= m ->
     exists b it, tree_begin F (tree_nav (binary_impl V) h) Leaves (baddr t) = Ok b /\
       run F (binary_impl V) h (repeat true m ++ repeat false n) b = Ok it /\
       it_cur it = nth_addr (flat_map leaves (bin_forest t)) (m - n) /\
       (0 < n -> exists it2, incr F (binary_impl V) h it = Ok it2 /\ it_cur it2 = nth_addr (flat_map leaves (bin_forest t)) (S (m - n)))) /\
  (forall (h : gmap addr (nnode V)) (t : option (rose (addr * V))),
     onary_in h t -> nsize t < F -> m <= length (opt_list leaves t) -> n <= m ->
     exists b it, tree_begin F (tree_nav (nary_impl V) h) Leaves (nroot t) = Ok b /\
       run F (nary_impl V) h (repeat true m ++ repeat false n) b = Ok it /\
       it_cur it = nth_addr (opt_list leaves t) (m - n) /\
       (0 < n -> exists it2, incr F (nary_impl V) h it = Ok it2 /\ it_cur it2 = nth_addr (opt_list leaves t) (S (m - n)))).
Proof.
  intros V EV F m n. split; intros h t Ht HF Hm Hn.
  - apply (leaf_moves_ok _ _ _ _ _ m n (bin_leaf_ok F h t Ht HF) Hm Hn).
  - apply (leaf_moves_ok _ _ _ _ _ m n (nary_leaf_ok F h t Ht HF) Hm Hn).
Qed.
Print Assumptions C15_forth_and_back_partial.

Example C15_used :
  onary_in ex_nheap (Some ex_nary) /\ nsize (Some ex_nary) < 100 /\ 3 <= length (opt_list leaves (Some ex_nary)) /\ bin_in ex_bheap ex_bin.
Proof. split; [exact ex_nary_in|]. split; [exact (proj2 ex_sizes)|]. split; [vm_compute; lia|exact ex_bin_in]. Qed.

(** ++, --, ++, ++, ++, ++ from begin on a tree with four leaves must reach the
    end; it is at the third leaf instead (an element is visited twice). *)
Theorem C15_mixed_nary_refuted :
  exists (h : gmap addr (nnode nat)) (t : rose (addr * nat)) (ms : list bool) (j : nat) (b it : iter),
    onary_in h (Some t) /\ nsize (Some t) < 100 /\
    tree_begin 100 (tree_nav (nary_impl nat) h) Leaves (nroot (Some t)) = Ok b /\
    run 100 (nary_impl nat) h ms b = Ok it /\
    position (length (leaves t)) ms 0 = Some j /\
    it_cur it <> nth_addr (leaves t) j /\ exists i, i < j /\ it_cur it = nth_addr (leaves t) i.
Proof.
  exists ex_nheap, ex_nary, [true; false; true; true; true; true], 4. eexists _, _.
  split; [exact ex_nary_in|]. split; [exact (proj2 ex_sizes)|]. split; [vm_compute; reflexivity|].
  split; [vm_compute; reflexivity|]. split; [reflexivity|]. split; [vm_compute; discriminate|]. exists 2. split; [lia|reflexivity].
Qed.
Print Assumptions C15_mixed_nary_refuted.

(** The same on the binary tree 1 (2, 3 (4, 5)). *)
Definition leaf_bin : bin (addr * nat) :=
  BNode (1%positive, 10) (BNode (2%positive, 20) BLeaf BLeaf)
    (BNode (3%positive, 30) (BNode (4%positive, 40) BLeaf BLeaf) (BNode (5%positive, 50) BLeaf BLeaf)).
Definition leaf_bheap : gmap addr (bnode nat) :=
  list_to_map
    [(1%positive, BNodeR 10 None (Some 2%positive) (Some 3%positive));
     (2%positive, BNodeR 20 (Some 1%positive) None None);
     (3%positive, BNodeR 30 (Some 1%positive) (Some 4%positive) (Some 5%positive));
     (4%positive, BNodeR 40 (Some 3%positive) None None);
     (5%positive, BNodeR 50 (Some 3%positive) None None)].
Theorem C15_mixed_binary_refuted :
  exists (h : gmap addr (bnode nat)) (t : bin (addr * nat)) (ms : list bool) (j : nat) (b it : iter),
    bin_in h t /\ bin_size t < 100 /\
    tree_begin 100 (tree_nav (binary_impl nat) h) Leaves (baddr t) = Ok b /\
    run 100 (binary_impl nat) h ms b = Ok it /\
    position (length (bin_order Leaves t)) ms 0 = Some j /\
    it_cur it <> nth_addr (bin_order Leaves t) j /\ exists i, i < j /\ it_cur it = nth_addr (bin_order Leaves t) i.
Proof.
  exists leaf_bheap, leaf_bin, [true; false; true; true; true], 3. eexists _, _.
  split. { exists None. split; [vm_compute; tauto|]. apply (bool_decide_unpack _). vm_compute. exact I. }
  split; [vm_compute; lia|]. split; [vm_compute; reflexivity|].
  split; [vm_compute; reflexivity|]. split; [reflexivity|]. split; [vm_compute; discriminate|]. exists 2. split; [lia|reflexivity].
Qed.
Print Assumptions C15_mixed_binary_refuted.
