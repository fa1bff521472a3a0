(** PropTree.v: construction, copying, moving, swapping, comparing and measuring
    tree objects (C16-C22, C24, C26, C32).

    Conventions.  [w] is a world: a heap of nodes and a set of tree objects named
    by identities [i], [j].  [consistent K w M] (TreeSpec.v, World.v) says that
    [M] gives the contents of the live trees: every tree object refers to the
    root of a properly linked tree, no two trees share a node, the allocated
    nodes are exactly those of the trees.  A statement
    [consistent K w' (<[i := c']> M)] therefore says that tree [i] now has the
    contents [c'], that all the other trees are as before, node for node, and
    that nothing is leaked.  [tree_kind V EV Nd im K] ranges over binary_tree and
    nary_tree.  [F] bounds the number of steps of each loop; it need only exceed
    the number of nodes, which is below 2^64. *)
From Verif Require Import Base Spec EditSpec StructNode BinaryNode NaryNode Nav Policy Tree Rep User World Kinds TreeSpec
  TreeOps TreeOps2 TreeOps3 TreeOps4 History TreeFacts Examples Examples2.

(** *** C16, C17: construction from a literal *)
Theorem C16_construct_binary :
  forall (V : Type) (EV : EqDecision V) (al : allocator (bnode V)) (w : world (bnode V)) (M : gmap tid (bin (addr * V))) (i : tid) (v : V) (cs : list (lit V)),
  consistent (binary_kind V) w M -> M !! i = None -> two_slots (LNode v cs) ->
  exists w' t, construct_struct (binary_impl V) al w i (eval_lit (LNode v cs)) = Ok w' /\
    consistent (binary_kind V) w' (<[i := t]> M) /\ bin_map snd t = lit_bin (LNode v cs) /\
    (forall x, x ∈ baddrs t -> w_heap w !! x = None) /\ (forall k, k <> i -> w_trees w' !! k = w_trees w !! k).
Proof.
  intros V EV al w M i v cs H Hi Hl. pose proof (kind_is_ok 0 al (binary_tree_kind V EV)) as KO.
  apply (to_holds 0 _ al _ (binary_tree_kind V EV) ltac:(vm_compute; discriminate)) in H.
  destruct (construct_struct_ok 0 _ al _ KO w M i v cs H Hi Hl) as (w' & t & E & H' & Hv & Hf & Htr).
  exists w', t. split; [exact E|]. split; [apply (to_holds 0 _ al _ (binary_tree_kind V EV) ltac:(vm_compute; discriminate)), H'|].
  split; [exact Hv|]. split; [exact Hf|]. intros k Hk. rewrite Htr. apply lookup_insert_ne. congruence.
Qed.
Print Assumptions C16_construct_binary.

Theorem C17_construct_nary :
  forall (V : Type) (EV : EqDecision V) (al : allocator (nnode V)) (w : world (nnode V)) (M : gmap tid (option (rose (addr * V)))) (i : tid) (v : V) (cs : list (lit V)),
  consistent (nary_kind V) w M -> M !! i = None -> no_empty (LNode v cs) ->
  exists w' t, construct_struct (nary_impl V) al w i (eval_lit (LNode v cs)) = Ok w' /\
    consistent (nary_kind V) w' (<[i := Some t]> M) /\ [rose_map snd t] = lit_rose (LNode v cs) /\
    (forall x, x ∈ raddrs t -> w_heap w !! x = None) /\ (forall k, k <> i -> w_trees w' !! k = w_trees w !! k).
Proof.
  intros V EV al w M i v cs H Hi Hl. pose proof (kind_is_ok 0 al (nary_tree_kind V EV)) as KO.
  apply (to_holds 0 _ al _ (nary_tree_kind V EV) ltac:(vm_compute; discriminate)) in H.
  destruct (construct_struct_ok 0 _ al _ KO w M i v cs H Hi Hl) as (w' & t & E & H' & Hv & Hf & Htr).
  destruct t as [t|]; [|cbn in Hv; discriminate].
  exists w', t. split; [exact E|]. split; [apply (to_holds 0 _ al _ (nary_tree_kind V EV) ltac:(vm_compute; discriminate)), H'|].
  split; [cbn in Hv |- *; congruence|]. split; [exact Hf|]. intros k Hk. rewrite Htr. apply lookup_insert_ne. congruence.
Qed.
Print Assumptions C17_construct_nary.

Example C16_used : exists w' t, construct_struct (binary_impl nat) (first_fit _) ex_bw 3%positive (eval_lit (LNode 1 [LEmpty; LNode 2 [LNode 3 []]])) = Ok w' /\
  consistent (binary_kind nat) w' (<[3%positive := t]> ex_bM) /\ bin_map snd t = BNode 1 BLeaf (BNode 2 (BNode 3 BLeaf BLeaf) BLeaf).
Proof.
  destruct (C16_construct_binary nat _ (first_fit _) ex_bw ex_bM 3%positive 1 [LEmpty; LNode 2 [LNode 3 []]] ex_bw_ok eq_refl) as (w' & t & H1 & H2 & H3 & _).
  { vm_compute. lia. } exists w', t. auto.
Qed.
Example C17_used : exists w' t, construct_struct (nary_impl nat) (first_fit _) ex_nw 3%positive (eval_lit (LNode 1 [LNode 2 [LNode 3 []]; LNode 4 []; LNode 5 []])) = Ok w' /\
  consistent (nary_kind nat) w' (<[3%positive := Some t]> ex_nM) /\ rose_map snd t = Rose 1 [Rose 2 [Rose 3 []]; Rose 4 []; Rose 5 []].
Proof.
  destruct (C17_construct_nary nat _ (first_fit _) ex_nw ex_nM 3%positive 1 [LNode 2 [LNode 3 []]; LNode 4 []; LNode 5 []] ex_nw_ok eq_refl) as (w' & t & H1 & H2 & H3 & _).
  { vm_compute. tauto. } exists w', t. split; [exact H1|]. split; [exact H2|]. cbn in H3. congruence.
Qed.

(** *** C18: copying *)
Theorem C18_copy_construct :
  forall (V : Type) (EV : EqDecision V) (Nd : Type) (im : node_impl V Nd) (K : kind_data V Nd) (F : nat) (al : allocator Nd),
  tree_kind V EV Nd im K -> (N.of_nat F <= W64)%N ->
  forall (w : world Nd) (M : gmap tid (C K)) (i j : tid) (c : C K),
  consistent K w M -> size (w_heap w) < F -> M !! i = None -> M !! j = Some c ->
  exists w' c', construct_copy F im al w i j = Ok w' /\
    consistent K w' (<[i := c']> M) /\ cvals K c' = cvals K c /\
    (forall x, x ∈ caddrs K c' -> w_heap w !! x = None) /\ (forall k, k <> i -> w_trees w' !! k = w_trees w !! k).
Proof.
  intros V EV Nd im K F al HK HFW w M i j c H HF Hi Hj. apply (to_holds F _ al _ HK HFW) in H.
  destruct (tree_get F im al K HK HFW w M j H ltac:(eexists; exact Hj)) as (c0 & t & Hc0 & Ht & L). rewrite Hj in Hc0. injection Hc0 as <-.
  destruct (construct_copy_ok F im al K (kind_is_ok F al HK) w M i j c t H Hi Hj Ht ltac:(lia)) as (w' & c' & E & H' & Hv & _ & _ & Hf & Htr).
  exists w', c'. split; [exact E|]. split; [apply (to_holds F _ al _ HK HFW), H'|]. split; [exact Hv|]. split; [exact Hf|].
  intros k Hk. rewrite Htr. apply lookup_insert_ne. congruence.
Qed.
Print Assumptions C18_copy_construct.

(** Also for [i = j] (self-assignment): the tree then has new nodes with the same
    values.  The old nodes of the target are released. *)
Theorem C18_copy_assign :
  forall (V : Type) (EV : EqDecision V) (Nd : Type) (im : node_impl V Nd) (K : kind_data V Nd) (F : nat) (al : allocator Nd),
  tree_kind V EV Nd im K -> (N.of_nat F <= W64)%N ->
  forall (w : world Nd) (M : gmap tid (C K)) (i j : tid) (c d : C K),
  consistent K w M -> size (w_heap w) < F -> M !! i = Some c -> M !! j = Some d ->
  exists w' c', assign_copy F im al w i j = Ok w' /\
    consistent K w' (<[i := c']> M) /\ cvals K c' = cvals K d /\
    (forall x, x ∈ caddrs K c' -> w_heap w !! x = None) /\ (forall x, x ∈ caddrs K c -> w_heap w' !! x = None) /\
    (forall k, k <> i -> w_trees w' !! k = w_trees w !! k).
Proof.
  intros V EV Nd im K F al HK HFW w M i j c d Hw HF Hi Hj. pose proof Hw as H. apply (to_holds F _ al _ HK HFW) in H.
  destruct (tree_get F im al K HK HFW w M j H ltac:(eexists; exact Hj)) as (d0 & t & Hd0 & Ht & L). rewrite Hj in Hd0. injection Hd0 as <-.
  pose proof (holds_size _ _ _ _ _ _ _ _ H Hi) as Lc.
  destruct (assign_copy_ok F im al K (kind_is_ok F al HK) w M i j c d t H Hi Hj Ht ltac:(lia) ltac:(lia)) as (w' & c' & E & H' & Hv & _ & _ & Hf & Htr).
  apply (to_holds F _ al _ HK HFW) in H'.
  exists w', c'. split; [exact E|]. split; [exact H'|]. split; [exact Hv|]. split; [exact Hf|]. split.
  - intros x Hx. eapply (gone F im al K HK HFW); [exact Hw|exact Hi|exact H'|exact Hx|]. intros Hx'.
    exact (old_in F im al K HK HFW _ _ _ _ _ Hw Hi Hx (Hf x Hx')).
  - intros k Hk. rewrite Htr. apply lookup_insert_ne. congruence.
Qed.
Print Assumptions C18_copy_assign.

(** Assignment from a view: [s] is the subtree it shows ([csrc]: for n-ary trees
    its root has no next sibling, see C22). *)
Theorem C18_view_assign :
  forall (V : Type) (EV : EqDecision V) (Nd : Type) (im : node_impl V Nd) (K : kind_data V Nd) (F : nat) (al : allocator Nd),
  tree_kind V EV Nd im K -> (N.of_nat F <= W64)%N ->
  forall (w : world Nd) (M : gmap tid (C K)) (i : tid) (view : tree_rec) (c s : C K),
  consistent K w M -> size (w_heap w) < F -> M !! i = Some c -> csrc K (w_heap w) s -> t_root view = croot K s ->
  exists w' c', assign_view F im al w i view = Ok w' /\
    consistent K w' (<[i := c']> M) /\ cvals K c' = cvals K s /\
    (forall x, x ∈ caddrs K c' -> w_heap w !! x = None) /\ (forall x, x ∈ caddrs K c -> w_heap w' !! x = None) /\
    (forall k, k <> i -> w_trees w' !! k = w_trees w !! k).
Proof.
  intros V EV Nd im K F al HK HFW w M i t c s Hw HF Hi Hs Hr. pose proof Hw as H. apply (to_holds F _ al _ HK HFW) in H.
  pose proof (holds_size _ _ _ _ _ _ _ _ H Hi) as Lc. pose proof (src_size F im al K (kind_is_ok F al HK) _ _ Hs) as Ls.
  destruct (assign_view_ok F im al K (kind_is_ok F al HK) w M i c t s H Hi Hs Hr ltac:(lia) ltac:(lia)) as (w' & c' & E & H' & Hv & _ & _ & Hf & Htr).
  apply (to_holds F _ al _ HK HFW) in H'.
  exists w', c'. split; [exact E|]. split; [exact H'|]. split; [exact Hv|]. split; [exact Hf|]. split.
  - intros x Hx. eapply (gone F im al K HK HFW); [exact Hw|exact Hi|exact H'|exact Hx|]. intros Hx'.
    exact (old_in F im al K HK HFW _ _ _ _ _ Hw Hi Hx (Hf x Hx')).
  - intros k Hk. rewrite Htr. apply lookup_insert_ne. congruence.
Qed.
Print Assumptions C18_view_assign.

Example C18_used : exists w' c', assign_copy 100 (nary_impl nat) (first_fit _) ex_nw 2%positive 1%positive = Ok w' /\
  consistent (nary_kind nat) w' (<[2%positive := c']> ex_nM) /\ nvals c' = nvals (Some ex_nary).
Proof.
  destruct (C18_copy_assign nat _ _ _ _ 100 (first_fit _) (nary_tree_kind nat _) ex_word ex_nw ex_nM 2%positive 1%positive (Some (Rose (7%positive, 70) [])) (Some ex_nary) ex_nw_ok)
    as (w' & c' & H1 & H2 & H3 & _); [vm_compute; lia|reflexivity|reflexivity|]. exists w', c'. auto.
Qed.

(** *** C19: moving *)
Theorem C19_move_construct :
  forall (V : Type) (EV : EqDecision V) (Nd : Type) (im : node_impl V Nd) (K : kind_data V Nd),
  tree_kind V EV Nd im K ->
  forall (w : world Nd) (M : gmap tid (C K)) (i j : tid) (c : C K) (t : tree_rec),
  consistent K w M -> M !! i = None -> M !! j = Some c -> w_trees w !! j = Some t ->
  exists w', construct_move w i j = Ok w' /\
    consistent K w' (<[j := cnil K]> (<[i := c]> M)) /\ w_heap w' = w_heap w /\
    w_trees w' !! i = Some t /\ w_trees w' !! j = Some (TreeRec None 0 0 None) /\
    (forall k, k <> i -> k <> j -> w_trees w' !! k = w_trees w !! k).
Proof.
  intros V EV Nd im K HK w M i j c t H Hi Hj Ht.
  pose proof (first_fit Nd) as al. assert (HFW : (N.of_nat 0 <= W64)%N) by (vm_compute; discriminate).
  destruct (wo_tree _ _ _ _ _ H j t c Ht Hj) as (Hr & Hn & _). apply (to_holds 0 _ al _ HK HFW) in H.
  destruct (construct_move_ok 0 im al K (kind_is_ok 0 al HK) w M i j c t H Hi Hj Ht) as (w' & E & H' & Hh & Htr).
  assert (Hne : i <> j) by congruence.
  exists w'. split; [exact E|]. split; [apply (to_holds 0 _ al _ HK HFW), H'|]. split; [exact Hh|]. rewrite Htr. split; [|split].
  - rewrite lookup_insert_ne, lookup_insert by congruence. rewrite <- Hr at 1. rewrite <- Hn. destruct t; reflexivity.
  - apply lookup_insert.
  - intros k H1 H2. rewrite !lookup_insert_ne by congruence. reflexivity.
Qed.
Print Assumptions C19_move_construct.

Theorem C19_move_assign :
  forall (V : Type) (EV : EqDecision V) (Nd : Type) (im : node_impl V Nd) (K : kind_data V Nd) (F : nat),
  tree_kind V EV Nd im K -> (N.of_nat F <= W64)%N ->
  forall (w : world Nd) (M : gmap tid (C K)) (i j : tid) (c d : C K),
  consistent K w M -> size (w_heap w) < F -> i <> j -> M !! i = Some c -> M !! j = Some d ->
  exists w', assign_move F im w i j = Ok w' /\
    consistent K w' (<[j := cnil K]> (<[i := d]> M)) /\ (forall x, x ∈ caddrs K c -> w_heap w' !! x = None) /\
    w_trees w' !! i = w_trees w !! j /\ w_trees w' !! j = Some (TreeRec None 0 0 None) /\
    (forall k, k <> i -> k <> j -> w_trees w' !! k = w_trees w !! k).
Proof.
  intros V EV Nd im K F HK HFW w M i j c d Hw HF Hne Hi Hj. pose proof (first_fit Nd) as al.
  pose proof Hw as H. apply (to_holds F _ al _ HK HFW) in H.
  destruct (holds_get _ _ _ _ _ _ _ _ H Hj) as (t & Ht & _ & Hr & Hn). pose proof (holds_size _ _ _ _ _ _ _ _ H Hi) as Lc.
  destruct (assign_move_ok F im al K (kind_is_ok F al HK) w M i j c d t H Hne Hi Hj Ht ltac:(lia)) as (w' & E & H' & Hh & Htr).
  apply (to_holds F _ al _ HK HFW) in H'.
  exists w'. split; [exact E|]. split; [exact H'|]. split; [|rewrite Htr; split; [|split]].
  - intros x Hx. destruct (w_heap w' !! x) as [n|] eqn:En; [|reflexivity]. exfalso.
    destruct (proj1 (wo_owned _ _ _ _ _ H' x) ltac:(eauto)) as (k & e & Hk & He). destruct (decide (j = k)) as [<-|Hjk].
    + rewrite lookup_insert in Hk. injection Hk as <-. rewrite (nil_addrs F im al K (kind_is_ok F al HK)) in He. apply elem_of_nil in He as [].
    + rewrite lookup_insert_ne in Hk by exact Hjk. destruct (decide (i = k)) as [<-|Hik].
      * rewrite lookup_insert in Hk. injection Hk as <-. apply Hne. eapply (wo_disjoint _ _ _ _ _ Hw); eassumption.
      * rewrite lookup_insert_ne in Hk by exact Hik. apply Hik. eapply (wo_disjoint _ _ _ _ _ Hw); eassumption.
  - rewrite lookup_insert_ne, lookup_insert, Ht by congruence. rewrite <- Hr at 1. rewrite <- Hn. destruct t; reflexivity.
  - apply lookup_insert.
  - intros k H1 H2. rewrite !lookup_insert_ne by congruence. reflexivity.
Qed.
Print Assumptions C19_move_assign.

(** A tree move-assigned to itself becomes empty; its nodes are released. *)
Theorem C19_self_move_assign :
  forall (V : Type) (EV : EqDecision V) (Nd : Type) (im : node_impl V Nd) (K : kind_data V Nd) (F : nat),
  tree_kind V EV Nd im K -> (N.of_nat F <= W64)%N ->
  forall (w : world Nd) (M : gmap tid (C K)) (i : tid) (c : C K),
  consistent K w M -> size (w_heap w) < F -> M !! i = Some c ->
  exists w', assign_move F im w i i = Ok w' /\ consistent K w' (<[i := cnil K]> M) /\ w_trees w' = <[i := TreeRec None 0 0 None]> (w_trees w).
Proof.
  intros V EV Nd im K F HK HFW w M i c H HF Hi. pose proof (first_fit Nd) as al. apply (to_holds F _ al _ HK HFW) in H.
  pose proof (holds_size _ _ _ _ _ _ _ _ H Hi) as Lc.
  destruct (assign_move_self_ok F im al K (kind_is_ok F al HK) w M i c H Hi ltac:(lia)) as (w' & E & H' & Htr).
  exists w'. split; [exact E|]. split; [apply (to_holds F _ al _ HK HFW), H'|exact Htr].
Qed.
Print Assumptions C19_self_move_assign.

Example C19_used : exists w', assign_move 100 (binary_impl nat) ex_bw 2%positive 1%positive = Ok w' /\
  consistent (binary_kind nat) w' (<[1%positive := BLeaf]> (<[2%positive := ex_bin]> ex_bM)) /\ w_heap w' !! 7%positive = None.
Proof.
  destruct (C19_move_assign nat _ _ _ _ 100 (binary_tree_kind nat _) ex_word ex_bw ex_bM 2%positive 1%positive (BNode (7%positive, 70) BLeaf BLeaf) ex_bin ex_bw_ok)
    as (w' & H1 & H2 & H3 & _); [vm_compute; lia|discriminate|reflexivity|reflexivity|]. exists w'. split; [exact H1|]. split; [exact H2|]. apply H3. left.
Qed.

(** *** C20: swap *)
Theorem C20_swap :
  forall (V : Type) (EV : EqDecision V) (Nd : Type) (im : node_impl V Nd) (K : kind_data V Nd),
  tree_kind V EV Nd im K ->
  forall (w : world Nd) (M : gmap tid (C K)) (i j : tid) (c d : C K),
  consistent K w M -> M !! i = Some c -> M !! j = Some d ->
  exists w', swap w i j = Ok w' /\ consistent K w' (<[j := c]> (<[i := d]> M)) /\ w_heap w' = w_heap w /\
    w_trees w' !! i = w_trees w !! j /\ w_trees w' !! j = w_trees w !! i /\
    (forall k, k <> i -> k <> j -> w_trees w' !! k = w_trees w !! k) /\ (i = j -> w' = w).
Proof.
  intros V EV Nd im K HK w M i j c d H Hi Hj. pose proof (first_fit Nd) as al.
  assert (HFW : (N.of_nat 0 <= W64)%N) by (vm_compute; discriminate). apply (to_holds 0 _ al _ HK HFW) in H.
  destruct (holds_get _ _ _ _ _ _ _ _ H Hi) as (ti & Hti & _). destruct (holds_get _ _ _ _ _ _ _ _ H Hj) as (tj & Htj & _).
  destruct (swap_ok K w M i j c d ti tj H Hi Hj Hti Htj) as (w' & E & H' & Hh & Htr).
  exists w'. split; [exact E|]. split; [apply (to_holds 0 _ al _ HK HFW), H'|]. split; [exact Hh|]. rewrite Htr, Hti, Htj. split; [|split; [|split]].
  - destruct (decide (i = j)) as [<-|Hne]; [rewrite lookup_insert; congruence|]. rewrite lookup_insert_ne, lookup_insert by congruence. reflexivity.
  - apply lookup_insert.
  - intros k H1 H2. rewrite !lookup_insert_ne by congruence. reflexivity.
  - intros <-. destruct w, w'. cbn in *. f_equal; [exact Hh|]. rewrite Htr, insert_insert. apply insert_id. exact Hti.
Qed.
Print Assumptions C20_swap.

Example C20_used : exists w', swap ex_nw 1%positive 2%positive = Ok w' /\ consistent (nary_kind nat) w' (<[2%positive := Some ex_nary]> (<[1%positive := Some (Rose (7%positive, 70) [])]> ex_nM)).
Proof.
  destruct (C20_swap nat _ _ _ _ (nary_tree_kind nat _) ex_nw ex_nM 1%positive 2%positive _ _ ex_nw_ok eq_refl eq_refl) as (w' & H1 & H2 & _). eauto.
Qed.

(** *** C21: comparing trees.  [reports] (TreeSpec.v): size() and arity() of the
    trees return the right values; C31 says when this may fail. *)
Theorem C21_equality :
  forall (V : Type) (EV : EqDecision V) (Nd : Type) (im : node_impl V Nd) (K : kind_data V Nd) (F : nat),
  tree_kind V EV Nd im K -> (N.of_nat F <= W64)%N ->
  forall (w : world Nd) (M : gmap tid (C K)) (i j : tid) (c d : C K),
  consistent K w M -> size (w_heap w) < F -> reports K F im w M -> M !! i = Some c -> M !! j = Some d ->
  exists r w', tree_eq F im w i j = Ok (r, w') /\ (r = true <-> cvals K c = cvals K d) /\
    consistent K w' M /\ w_heap w' = w_heap w /\ reports K F im w' M.
Proof.
  intros V EV Nd im K F HK HFW w M i j c d Hw HF Hrep Hi Hj. pose proof (first_fit Nd) as al.
  pose proof Hw as H. apply (to_holds F _ al _ HK HFW) in H. apply (reports_caches F im al K HK HFW w M Hw HF) in Hrep.
  pose proof (holds_size _ _ _ _ _ _ _ _ H Hi) as Lc. pose proof (holds_size _ _ _ _ _ _ _ _ H Hj) as Ld.
  destruct (tree_eq_ok F im al K (kind_is_ok F al HK) HFW w M [] i j c d H Hrep Hi Hj ltac:(lia) ltac:(lia)) as (r & w' & E & Hiff & H' & Hca & Hh).
  apply (to_holds F _ al _ HK HFW) in H'.
  exists r, w'. split; [exact E|]. split; [exact Hiff|]. split; [exact H'|]. split; [exact Hh|].
  apply (reports_caches F im al K HK HFW w' M H'); [rewrite Hh; exact HF|exact Hca].
Qed.
Print Assumptions C21_equality.

(** == is reflexive, symmetric and transitive. *)
Theorem C21_equivalence :
  forall (V : Type) (EV : EqDecision V) (Nd : Type) (im : node_impl V Nd) (K : kind_data V Nd) (F : nat),
  tree_kind V EV Nd im K -> (N.of_nat F <= W64)%N ->
  forall (w : world Nd) (M : gmap tid (C K)) (i j k : tid),
  consistent K w M -> size (w_heap w) < F -> reports K F im w M -> live K M i -> live K M j -> live K M k ->
  let equal x y := exists w', tree_eq F im w x y = Ok (true, w') in
  equal i i /\ (equal i j -> equal j i) /\ (equal i j -> equal j k -> equal i k).
Proof.
  intros V EV Nd im K F HK HFW w M i j k Hw HF Hrep [c Hi] [d Hj] [e Hk] equal.
  assert (Heq : forall x y cx cy, M !! x = Some cx -> M !! y = Some cy -> equal x y <-> cvals K cx = cvals K cy).
  { intros x y cx cy Hx Hy. destruct (C21_equality V EV Nd im K F HK HFW w M x y cx cy Hw HF Hrep Hx Hy) as (r & w' & E & Hiff & _).
    rewrite <- Hiff. unfold equal. rewrite E. split; [intros (w'' & E'); congruence|]. intros ->. eauto. }
  rewrite (Heq i i c c Hi Hi), (Heq i j c d Hi Hj), (Heq j i d c Hj Hi), (Heq j k d e Hj Hk), (Heq i k c e Hi Hk). split; [reflexivity|]. split; congruence.
Qed.
Print Assumptions C21_equivalence.

Example C21_used : exists w', tree_eq 100 (nary_impl nat) ex_nw 1%positive 2%positive = Ok (false, w').
Proof.
  assert (Hr : reports (nary_kind nat) 100 (nary_impl nat) ex_nw ex_nM).
  { apply (reports_caches 100 _ (first_fit _) _ (nary_tree_kind nat _) ex_word); [exact ex_nw_ok|vm_compute; lia|exact ex_nw_caches]. }
  destruct (C21_equality nat _ _ _ _ 100 (nary_tree_kind nat _) ex_word ex_nw ex_nM 1%positive 2%positive _ _ ex_nw_ok ltac:(vm_compute; lia) Hr eq_refl eq_refl) as ([] & w' & E & Hiff & _).
  - exfalso. assert (Hx := proj1 Hiff eq_refl). discriminate.
  - eauto.
Qed.

(** *** C24: comparing with a literal *)
Theorem C24_literal_equality :
  forall (V : Type) (EV : EqDecision V) (Nd : Type) (im : node_impl V Nd) (K : kind_data V Nd) (F : nat),
  tree_kind V EV Nd im K -> (N.of_nat F <= W64)%N ->
  forall (w : world Nd) (M : gmap tid (C K)) (i : tid) (c : C K),
  consistent K w M -> size (w_heap w) < F -> reports K F im w M -> M !! i = Some c ->
  (forall v cs, lit_ok K (LNode v cs) ->
     exists r w', tree_eq_struct F im w i (eval_lit (LNode v cs)) = Ok (r, w') /\ (r = true <-> cvals K c = lit_vals K (LNode v cs)) /\
       consistent K w' M /\ w_heap w' = w_heap w) /\
  (exists r, tree_eq_struct F im w i (eval_lit LEmpty) = Ok (r, w) /\ (r = true <-> c = cnil K)).
Proof.
  intros V EV Nd im K F HK HFW w M i c Hw HF Hrep Hi. pose proof (first_fit Nd) as al.
  pose proof Hw as H. apply (to_holds F _ al _ HK HFW) in H. apply (reports_caches F im al K HK HFW w M Hw HF) in Hrep.
  pose proof (holds_size _ _ _ _ _ _ _ _ H Hi) as Lc. split.
  - intros v cs Hl. destruct (tree_eq_struct_ok F im al K (kind_is_ok F al HK) HFW w M [] i c v cs H Hrep Hi ltac:(lia) Hl) as (r & w' & E & Hiff & H' & _ & Hh).
    exists r, w'. split; [exact E|]. split; [exact Hiff|]. split; [apply (to_holds F _ al _ HK HFW), H'|exact Hh].
  - exact (tree_eq_empty_ok F im al K (kind_is_ok F al HK) HFW w M [] i c H Hi).
Qed.
Print Assumptions C24_literal_equality.

Example C24_used : exists w', tree_eq_struct 100 (nary_impl nat) ex_nw 1%positive (eval_lit (LNode 10 [LNode 20 []; LNode 30 [LNode 50 []; LNode 60 []]; LNode 40 []])) = Ok (true, w').
Proof.
  assert (Hr : reports (nary_kind nat) 100 (nary_impl nat) ex_nw ex_nM).
  { apply (reports_caches 100 _ (first_fit _) _ (nary_tree_kind nat _) ex_word); [exact ex_nw_ok|vm_compute; lia|exact ex_nw_caches]. }
  destruct (proj1 (C24_literal_equality nat _ _ _ _ 100 (nary_tree_kind nat _) ex_word ex_nw ex_nM 1%positive (Some ex_nary) ex_nw_ok ltac:(vm_compute; lia) Hr eq_refl)
    10 [LNode 20 []; LNode 30 [LNode 50 []; LNode 60 []]; LNode 40 []]) as ([] & w' & E & Hiff & _).
  - vm_compute. tauto.
  - eauto.
  - exfalso. assert (Hx := proj2 Hiff eq_refl). discriminate.
Qed.

(** *** C26: size() and arity() *)
(** Calling them changes neither the trees nor what later calls return. *)
Theorem C26_pure :
  forall (V : Type) (EV : EqDecision V) (Nd : Type) (im : node_impl V Nd) (K : kind_data V Nd) (F : nat),
  tree_kind V EV Nd im K -> (N.of_nat F <= W64)%N ->
  forall (w : world Nd) (M : gmap tid (C K)) (i : tid) (c : C K),
  consistent K w M -> size (w_heap w) < F -> reports K F im w M -> M !! i = Some c ->
  (exists w', tree_size F im w i = Ok (N.of_nat (length (caddrs K c)), w') /\ consistent K w' M /\ w_heap w' = w_heap w /\ reports K F im w' M) /\
  (exists w', tree_arity F im w i = Ok (N.of_nat (carity K c), w') /\ consistent K w' M /\ w_heap w' = w_heap w /\ reports K F im w' M).
Proof.
  intros V EV Nd im K F HK HFW w M i c Hw HF Hrep Hi. pose proof (first_fit Nd) as al.
  pose proof Hw as H. apply (to_holds F _ al _ HK HFW) in H. apply (reports_caches F im al K HK HFW w M Hw HF) in Hrep.
  pose proof (holds_size _ _ _ _ _ _ _ _ H Hi) as Lc. split.
  - destruct (size_step F im al K (kind_is_ok F al HK) HFW w M [] i c H Hrep Hi ltac:(lia)) as (w' & E & H' & Hca & Hh & _). apply (to_holds F _ al _ HK HFW) in H'.
    exists w'. split; [exact E|]. split; [exact H'|]. split; [exact Hh|]. apply (reports_caches F im al K HK HFW w' M H'); [rewrite Hh; exact HF|exact Hca].
  - destruct (arity_step F im al K (kind_is_ok F al HK) HFW w M [] i c H Hrep Hi ltac:(lia)) as (w' & E & H' & Hca & Hh & _). apply (to_holds F _ al _ HK HFW) in H'.
    exists w'. split; [exact E|]. split; [exact H'|]. split; [exact Hh|]. apply (reports_caches F im al K HK HFW w' M H'); [rewrite Hh; exact HF|exact Hca].
Qed.
Print Assumptions C26_pure.

(** Construction, copy, move, assignment, clear, swap, destruction and
    comparisons ([plain] calls, History.v) keep all sizes and arities right; so a
    tree built by them reports the right ones. *)
Theorem C26_built :
  forall (V : Type) (EV : EqDecision V) (Nd : Type) (im : node_impl V Nd) (K : kind_data V Nd) (F : nat) (al : allocator Nd),
  tree_kind V EV Nd im K -> (N.of_nat F <= W64)%N ->
  forall (w : world Nd) (M : gmap tid (C K)) (c : call V) (w' : world Nd) (M' : gmap tid (C K)),
  consistent K w M -> size (w_heap w) < F -> reports K F im w M ->
  valid F im K w M c -> plain c -> view_exact K w c -> exec F im al w c = Ret () w' ->
  consistent K w' M' -> size (w_heap w') < F -> reports K F im w' M'.
Proof.
  intros V EV Nd im K F al HK HFW w M c w' M' Hw HF Hrep Hv Hp Hvx E Hw' HF'.
  apply (reports_caches F im al K HK HFW w M Hw HF) in Hrep. apply (reports_caches F im al K HK HFW w' M' Hw' HF').
  destruct (exec_ok F im al K HK HFW w M c Hw Hv HF) as (x & Mx & Ex & Hx & Hcx).
  assert (x = w') as -> by (destruct Ex; congruence). rewrite (contents_unique HK w' M' Mx Hw' Hx). apply Hcx; [exact Hrep|].
  destruct c; cbn in Hp, Hvx |- *; solve [contradiction|auto].
Qed.
Print Assumptions C26_built.

Example C26_used : exists w', tree_size 100 (nary_impl nat) ex_nw 1%positive = Ok (6%N, w') /\ exists w'', tree_arity 100 (nary_impl nat) ex_nw 1%positive = Ok (3%N, w'').
Proof.
  assert (Hr : reports (nary_kind nat) 100 (nary_impl nat) ex_nw ex_nM).
  { apply (reports_caches 100 _ (first_fit _) _ (nary_tree_kind nat _) ex_word); [exact ex_nw_ok|vm_compute; lia|exact ex_nw_caches]. }
  destruct (C26_pure nat _ _ _ _ 100 (nary_tree_kind nat _) ex_word ex_nw ex_nM 1%positive (Some ex_nary) ex_nw_ok ltac:(vm_compute; lia) Hr eq_refl) as [(w' & E & _) (w'' & E' & _)].
  exists w'. split; [exact E|]. exists w''. exact E'.
Qed.

(** *** C32: clear() and destruction *)
Theorem C32_clear :
  forall (V : Type) (EV : EqDecision V) (Nd : Type) (im : node_impl V Nd) (K : kind_data V Nd) (F : nat),
  tree_kind V EV Nd im K -> (N.of_nat F <= W64)%N ->
  forall (w : world Nd) (M : gmap tid (C K)) (i : tid) (c : C K),
  consistent K w M -> size (w_heap w) < F -> M !! i = Some c ->
  exists w', clear F im w i = Ok w' /\ consistent K w' (<[i := cnil K]> M) /\ w_heap w' = free (w_heap w) (caddrs K c) /\
    w_trees w' = <[i := TreeRec None 0 0 None]> (w_trees w) /\
    (exists w'', tree_size F im w' i = Ok (0%N, w'')) /\ (exists w'', tree_arity F im w' i = Ok (0%N, w'')).
Proof.
  intros V EV Nd im K F HK HFW w M i c Hw HF Hi. pose proof (first_fit Nd) as al.
  pose proof Hw as H. apply (to_holds F _ al _ HK HFW) in H. pose proof (holds_size _ _ _ _ _ _ _ _ H Hi) as Lc.
  destruct (clear_ok F im al K (kind_is_ok F al HK) w M [] i c H Hi ltac:(lia)) as (w' & E & H' & Htr).
  apply (to_holds F _ al _ HK HFW) in H'.
  exists w'. split; [exact E|]. split; [exact H'|]. split; [|split; [exact Htr|]].
  - (* the heap is what deallocate gives *)
    destruct (holds_get _ _ _ _ _ _ _ _ H Hi) as (t & Ht & Hg & Hr & _).
    destruct (k_dealloc _ _ _ _ (kind_is_ok F al HK) (w_heap w) c (holds_rep _ _ _ _ _ _ _ _ H Hi) ltac:(lia)) as (h' & Hd & Hh').
    unfold clear, assign in E. rewrite Hg in E. cbn [mbind res_bind] in E. rewrite Hr in E. destruct (croot K c) as [a|] eqn:Er.
    + rewrite Hd in E. cbn in E. injection E as <-. cbn. apply free_eq, Hh'.
    + cbn in E. injection E as <-. cbn. apply (k_null _ _ _ _ (kind_is_ok F al HK)) in Er. subst c. rewrite (nil_addrs F im al K (kind_is_ok F al HK)). reflexivity.
  - unfold tree_size, tree_arity, get_tree. rewrite Htr, lookup_insert. cbn. eauto.
Qed.
Print Assumptions C32_clear.

Theorem C32_destroy :
  forall (V : Type) (EV : EqDecision V) (Nd : Type) (im : node_impl V Nd) (K : kind_data V Nd) (F : nat),
  tree_kind V EV Nd im K -> (N.of_nat F <= W64)%N ->
  forall (w : world Nd) (M : gmap tid (C K)) (i : tid) (c : C K),
  consistent K w M -> size (w_heap w) < F -> M !! i = Some c ->
  exists w', destroy F im w i = Ok w' /\ consistent K w' (delete i M) /\ w_heap w' = free (w_heap w) (caddrs K c) /\ w_trees w' = delete i (w_trees w).
Proof.
  intros V EV Nd im K F HK HFW w M i c Hw HF Hi. pose proof (first_fit Nd) as al.
  destruct (C32_clear V EV Nd im K F HK HFW w M i c Hw HF Hi) as (w1 & E1 & _ & Hh & Htr & _).
  pose proof Hw as H. apply (to_holds F _ al _ HK HFW) in H. pose proof (holds_size _ _ _ _ _ _ _ _ H Hi) as Lc.
  destruct (destroy_ok F im al K (kind_is_ok F al HK) w M i c H Hi ltac:(lia)) as (w' & E & H' & Htr').
  exists w'. split; [exact E|]. split; [apply (to_holds F _ al _ HK HFW), H'|]. split; [|exact Htr'].
  unfold destroy in E. rewrite E1 in E. cbn in E. injection E as <-. exact Hh.
Qed.
Print Assumptions C32_destroy.

Example C32_used : exists w', destroy 100 (binary_impl nat) ex_bw 1%positive = Ok w' /\ consistent (binary_kind nat) w' (delete 1%positive ex_bM) /\ w_heap w' !! 4%positive = None /\ w_heap w' !! 7%positive <> None.
Proof.
  destruct (C32_destroy nat _ _ _ _ 100 (binary_tree_kind nat _) ex_word ex_bw ex_bM 1%positive ex_bin ex_bw_ok ltac:(vm_compute; lia) eq_refl) as (w' & E & H & Hh & _).
  exists w'. split; [exact E|]. split; [exact H|]. rewrite Hh. split; [vm_compute; reflexivity|vm_compute; discriminate].
Qed.
