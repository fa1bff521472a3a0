(** PropRootIndex.v: the root and the breadth first index of a node, and what a node
    says about its place (C72, C73). *)
From Verif Require Import Base Spec StructNode BinaryNode NaryNode Nav Policy Tree Rep RoseFacts RowFacts NavFacts Orders
  BinRep NaryRep User Iter IterTrees IterMain IterProofs EditSpec World Kinds TreeSpec TreeOps TreeFacts PropTree NodeFacts NodeProofs PropNode StarMain RootIndex RootIndexFacts Examples Examples2.

(** From every node of a tree, [get_root()] is the root node, and
    [get_breadth_first_node_index()] is the node's place in the breadth first
    sequence (0 for the root). *)
Theorem C72_nary :
  forall (V : Type) (EV : EqDecision V) (F : nat) (h : gmap addr (nnode V)) (t : rose (addr * V)) (l1 l2 : list (addr * V)) (x : addr * V),
  nary_at h t -> rsize t < F -> levelorder t = l1 ++ x :: l2 ->
  get_root F (nary_impl V) h (Some (fst x)) = Ok (Some (raddr t)) /\
  breadth_first_index F (nary_impl V) h (Some (fst x)) = Ok (length l1).
Proof.
  intros V EV F h t l1 l2 x Ht HF El.
  assert (Hin : nary_in h t) by (exists None, None, None, (szt 0); exact Ht).
  destruct (nary_facts h t Hin) as (Hops & _ & _).
  assert (Hr : op_parent (ni_ops (nary_impl V) h) (Some (label (rose_map fst t))) = Ok None).
  { destruct (C36_queries_nary V h t Ht) as (_ & Hp & _). rewrite label_map. exact Hp. }
  assert (Hx : x ∈ Spec.preorder t) by (rewrite <- levelorder_perm, El; apply elem_of_app; right; left).
  assert (Hx' : fst x ∈ Spec.preorder (rose_map fst t)) by (rewrite preorder_map; apply elem_of_list_fmap; exists x; auto).
  destruct (elem_position _ _ Hx') as (c & s & Hp & Hs). rewrite <- Hp in Hops, Hr.
  assert (Hg : get_root F (nary_impl V) h (Some (fst x)) = Ok (Some (raddr t))).
  { rewrite <- Hs. rewrite (get_root_ok F (nary_impl V) h c s Hops Hr).
    - rewrite Hp, label_map. reflexivity.
    - pose proof (ctx_length_size c s) as Hl. rewrite Hp, rsize_map in Hl. pose proof (rsize_pos s). lia. }
  split; [exact Hg|].
  refine (index_ok F (nary_impl V) h (Some (raddr t)) (levelorder t) l1 l2 x (nary_two F h (Some t) BreadthFirst Hin HF ltac:(unfold two_way_nary; auto)) El _ Hg).
  destruct t as [y cs]. reflexivity.
Qed.
Print Assumptions C72_nary.
Theorem C72_binary :
  forall (V : Type) (EV : EqDecision V) (F : nat) (h : gmap addr (bnode V)) (t : bin (addr * V)) (l1 l2 : list (addr * V)) (x : addr * V),
  bin_at h t -> bin_size t < F -> bin_order BreadthFirst t = l1 ++ x :: l2 ->
  get_root F (binary_impl V) h (Some (fst x)) = Ok (baddr t) /\
  breadth_first_index F (binary_impl V) h (Some (fst x)) = Ok (length l1).
Proof.
  intros V EV F h t l1 l2 x Ht HF El.
  assert (Hin : bin_in h t) by (exists None; exact Ht).
  assert (Hs0 : exists s, bin_forest t = [s]).
  { destruct t as [|y l r]; [destruct l1; discriminate|]. cbn. eauto. }
  destruct Hs0 as (s0 & Hs0). pose proof (bin_root t s0 Hs0) as Hroot.
  destruct (binary_facts h t s0 Hin Hs0) as (Hops & _ & _).
  assert (Hr : op_parent (ni_ops (binary_impl V) h) (Some (label (rose_map fst s0))) = Ok None).
  { destruct (C36_queries_binary V h t Ht) as (_ & Hp). rewrite label_map. exact (proj1 (Hp _ Hroot)). }
  cbn [bin_order] in El.
  assert (El' : levelorder s0 = l1 ++ x :: l2) by (rewrite <- El, Hs0; cbn [flat_map rose_order]; rewrite app_nil_r; reflexivity).
  assert (Hx : x ∈ Spec.preorder s0) by (rewrite <- levelorder_perm, El'; apply elem_of_app; right; left).
  assert (Hx' : fst x ∈ Spec.preorder (rose_map fst s0)) by (rewrite preorder_map; apply elem_of_list_fmap; exists x; auto).
  destruct (elem_position _ _ Hx') as (c & s & Hp & Hs). rewrite <- Hp in Hops, Hr.
  assert (Hsz : rsize s0 = bin_size t).
  { rewrite <- length_preorder. rewrite <- length_baddrs. unfold baddrs. rewrite map_length. f_equal.
    rewrite <- forest_labels, Hs0. cbn. rewrite app_nil_r. reflexivity. }
  assert (Hg : get_root F (binary_impl V) h (Some (fst x)) = Ok (baddr t)).
  { rewrite <- Hs. rewrite (get_root_ok F (binary_impl V) h c s Hops Hr).
    - rewrite Hp, label_map, Hroot. reflexivity.
    - pose proof (ctx_length_size c s) as Hl. rewrite Hp, rsize_map in Hl. pose proof (rsize_pos s). lia. }
  split; [exact Hg|].
  refine (index_ok F (binary_impl V) h (baddr t) (bin_order BreadthFirst t) l1 l2 x (bin_two F h t BreadthFirst Hin HF ltac:(unfold two_way_bin, two_way_nary; auto)) El _ Hg).
  rewrite Hroot. cbn [bin_order]. rewrite Hs0. destruct s0 as [y cs]. reflexivity.
Qed.
Print Assumptions C72_binary.

Example C72_used : breadth_first_index 100 (nary_impl nat) ex_nheap (Some 5%positive) = Ok 4 /\
  get_root 100 (binary_impl nat) ex_bheap (Some 5%positive) = Ok (Some 1%positive) /\
  breadth_first_index 100 (binary_impl nat) ex_bheap (Some 5%positive) = Ok 4.
Proof.
  split; [|split].
  - exact (proj2 (C72_nary nat _ 100 ex_nheap ex_nary [(1%positive, 10); (2%positive, 20); (3%positive, 30); (4%positive, 40)] [(6%positive, 60)] (5%positive, 50) ex_nary_at (proj2 ex_sizes) eq_refl)).
  - exact (proj1 (C72_binary nat _ 100 ex_bheap ex_bin [(1%positive, 10); (2%positive, 20); (3%positive, 30); (4%positive, 40)] [] (5%positive, 50) ex_bin_at (proj1 ex_sizes) eq_refl)).
  - exact (proj2 (C72_binary nat _ 100 ex_bheap ex_bin [(1%positive, 10); (2%positive, 20); (3%positive, 30); (4%positive, 40)] [] (5%positive, 50) ex_bin_at (proj1 ex_sizes) eq_refl)).
Qed.

(** What a node says about its own place: [t] ranges over the subtrees, [whole] is
    the tree. *)
Theorem C73_nary :
  forall (V : Type) (EV : EqDecision V) (h : gmap addr (nnode V)) (whole : rose (addr * V)),
  nary_at h whole ->
  (forall a v cs, rsubtree (Rose (a, v) cs) whole -> (N.of_nat (length cs) < W64)%N ->
     node_has_children (nary_impl V) h (Some a) = Ok (bool_decide (0 < length cs)) /\
     forall ls x rs, cs = ls ++ x :: rs ->
       node_is_root (nary_impl V) h (Some (raddr x)) = Ok false /\
       node_is_unique_child (n_is_first h) (n_is_last h) (Some (raddr x)) = Ok (bool_decide (length cs = 1))) /\
  node_is_root (nary_impl V) h (Some (raddr whole)) = Ok true /\
  node_is_unique_child (n_is_first h) (n_is_last h) (Some (raddr whole)) = Ok false.
Proof.
  intros V EV h whole Hw. destruct (C36_queries_nary V h whole Hw) as (Hq & Hp & _ & _ & Hf & _). split; [|split].
  - intros a v cs Hsub Hlen. destruct (Hq a v cs Hsub Hlen) as (_ & Hfc & _ & _ & _ & Hch). split.
    + unfold node_has_children. change (op_first (ni_ops (nary_impl V) h) (Some a)) with (n_first h (Some a)). rewrite Hfc. destruct cs; reflexivity.
    + intros ls x rs E. destruct (Hch ls x rs E) as (Hpar & _ & _ & Hfi & Hla & _). split.
      * unfold node_is_root. change (op_parent (ni_ops (nary_impl V) h) (Some (raddr x))) with (n_parent h (Some (raddr x))). rewrite Hpar. reflexivity.
      * unfold node_is_unique_child. rewrite Hfi. cbn [mbind res_bind]. rewrite E, app_length. destruct ls as [|y ls]; cbn.
        -- rewrite Hla. f_equal. destruct rs; reflexivity.
        -- f_equal. symmetry. apply bool_decide_eq_false. lia.
  - unfold node_is_root. change (op_parent (ni_ops (nary_impl V) h) (Some (raddr whole))) with (n_parent h (Some (raddr whole))). rewrite Hp. reflexivity.
  - unfold node_is_unique_child. rewrite Hf. reflexivity.
Qed.
Print Assumptions C73_nary.
Theorem C73_binary :
  forall (V : Type) (EV : EqDecision V) (h : gmap addr (bnode V)) (whole : bin (addr * V)),
  bin_at h whole ->
  (forall a v l r, bsubtree (BNode (a, v) l r) whole ->
     node_has_children (binary_impl V) h (Some a) = Ok (negb (is_null (baddr l)) || negb (is_null (baddr r))) /\
     forall x, baddr l = Some x \/ baddr r = Some x ->
       node_is_root (binary_impl V) h (Some x) = Ok false /\
       node_is_unique_child (b_is_first h) (b_is_last h) (Some x) = Ok (is_null (baddr l) || is_null (baddr r))) /\
  (forall a, baddr whole = Some a -> node_is_root (binary_impl V) h (Some a) = Ok true /\
     node_is_unique_child (b_is_first h) (b_is_last h) (Some a) = Ok false).
Proof.
  intros V EV h whole Hw. destruct (C36_queries_binary V h whole Hw) as (Hq & Hroot). split.
  - intros a v l r Hsub. destruct (Hq a v l r Hsub) as (_ & _ & _ & Hfc & _ & _ & _ & Hl & Hr). split.
    + unfold node_has_children. change (op_first (ni_ops (binary_impl V) h) (Some a)) with (b_first h (Some a)). rewrite Hfc.
      destruct (baddr l), (baddr r); reflexivity.
    + intros x [E|E].
      * destruct (Hl x E) as (Hpar & _ & _ & Hfi & Hla & _). split.
        -- unfold node_is_root. change (op_parent (ni_ops (binary_impl V) h) (Some x)) with (b_parent h (Some x)). rewrite Hpar. reflexivity.
        -- unfold node_is_unique_child. rewrite Hfi. cbn [mbind res_bind]. rewrite E. exact Hla.
      * destruct (Hr x E) as (Hpar & _ & _ & Hfi & Hla & _). split.
        -- unfold node_is_root. change (op_parent (ni_ops (binary_impl V) h) (Some x)) with (b_parent h (Some x)). rewrite Hpar. reflexivity.
        -- unfold node_is_unique_child. rewrite Hfi. cbn [mbind res_bind]. rewrite E. destruct (baddr l); cbn; [reflexivity|exact Hla].
  - intros a Ha. destruct (Hroot a Ha) as (Hpar & _ & _ & Hfi & _). split.
    + unfold node_is_root. change (op_parent (ni_ops (binary_impl V) h) (Some a)) with (b_parent h (Some a)). rewrite Hpar. reflexivity.
    + unfold node_is_unique_child. rewrite Hfi. reflexivity.
Qed.
Print Assumptions C73_binary.

(** 40 is the unique child of 20 and has children; 20 is not a unique child. *)
Example C73_used : node_is_unique_child (b_is_first ex_bheap) (b_is_last ex_bheap) (Some 4%positive) = Ok true /\
  node_is_unique_child (n_is_first ex_nheap) (n_is_last ex_nheap) (Some 2%positive) = Ok false.
Proof.
  split.
  - destruct (C73_binary nat _ ex_bheap ex_bin ex_bin_at) as [H _].
    destruct (H _ _ _ _ ex_bsub_ok) as (_ & Hx). exact (proj2 (Hx 4%positive (or_intror eq_refl))).
  - destruct (C73_nary nat _ ex_nheap ex_nary ex_nary_at) as [H _].
    destruct (H 1%positive 10 (Spec.children ex_nary) (rsub_here _) ltac:(vm_compute; reflexivity)) as (_ & Hx).
    exact (proj2 (Hx [] (Rose (2%positive, 20) []) _ eq_refl)).
Qed.
