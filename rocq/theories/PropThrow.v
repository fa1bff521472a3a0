(** PropThrow.v: C33 and C34, the failing insertions that go wrong, for every tree
    and every argument.  Conventions: see PropEdit.v. *)
From Verif Require Import Base Spec EditSpec StructNode BinaryNode NaryNode Nav Policy Tree Rep User World Kinds TreeSpec
  TreeOps TreeOps2 TreeOps3 TreeOps4 TreeFacts Examples Examples2 EditFacts PropEdit.

(** insert_child_front/back(position, std::move(other)) with a position at end()
    or at a full binary node throws, for every non-empty [other].  All the nodes
    of [other] are released then, but [other] still refers to them: its destructor
    uses released memory. *)
Theorem C34_insert_child_always_refuted :
  forall (V : Type) (EV : EqDecision V) (Nd : Type) (im : node_impl V Nd) (K : kind_data V Nd) (F : nat) (al : allocator Nd),
  tree_kind V EV Nd im K -> (N.of_nat F <= W64)%N ->
  forall (w : world Nd) (M : gmap tid (C K)) (i j : tid) (c d : C K) (r : addr) (first emplace : bool) (pos : iter),
  consistent K w M -> M !! i = Some c -> M !! j = Some d -> i <> j -> croot K d = Some r -> fits F w (@SrcMove V j) ->
  it_cur pos = None \/ (exists a, it_cur pos = Some a /\ a ∈ caddrs K c /\ cfull K a c) ->
  exists w', insert_child F im al first emplace w i pos (SrcMove j) = Throw w' /\
    (forall a, a ∈ caddrs K d -> w_heap w' !! a = None) /\
    (t_root <$> w_trees w' !! j) = Some (Some r) /\
    destroy F im w' j = Err Dangling.
Proof.
  intros V EV Nd im K F al HK HFW w M i j c d r first emplace pos Hw Hi Hj Hne Hr Hf Hpos. pose proof (kind_is_ok F al HK) as KO.
  pose proof Hw as H. apply (to_holds F _ al _ HK HFW) in H.
  destruct (release_ok F im al K KO w M j d H Hj) as (w1 & t & Ht & Hrel & H1 & Hh & Htr).
  pose proof (holds_size _ _ _ _ _ _ _ _ H Hj) as Lc. unfold fits in Hf.
  assert (Hrd : crep K (w_heap w1) d) by (exact (holds_rep _ _ _ _ _ _ _ _ H1 Hj)).
  assert (Hrc : crep K (w_heap w1) c) by (exact (holds_rep _ _ _ _ _ _ _ _ H1 Hi)).
  destruct (k_dealloc _ _ _ _ KO (w_heap w1) d Hrd ltac:(lia)) as (h' & Hd & Hlk).
  rewrite decide_False in Htr by congruence.
  exists (set_heap w1 h'). split; [|split; [|split]].
  - unfold insert_child. rewrite decide_False by exact Hne. rewrite Hrel. cbn [res_out]. unfold add_child.
    assert (Hdrop : drop F im w1 (croot K d) = Ok (set_heap w1 h')) by (unfold drop; rewrite Hd; reflexivity).
    destruct Hpos as [-> |(a & -> & Ha & Hful)].
    + rewrite Hdrop. reflexivity.
    + destruct (k_children _ _ _ _ KO (w_heap w1) c a Hrc Ha) as (k & -> & Hk). cbn [res_out].
      rewrite (proj2 Hk Hful), Hdrop. reflexivity.
  - intros a Ha. cbn. rewrite Hlk, bool_decide_eq_true_2 by exact Ha. reflexivity.
  - cbn [set_heap w_trees]. rewrite Htr, lookup_insert. cbn. congruence.
  - unfold destroy, clear, assign, get_tree. cbn [set_heap w_trees w_heap]. rewrite Htr, lookup_insert. cbn [mbind res_bind t_root]. rewrite Hr.
    assert (Hnone : h' !! r = None) by (rewrite Hlk, bool_decide_eq_true_2; [reflexivity|exact (k_root _ _ _ _ KO d r Hr)]).
    assert (Hres : ni_resources im h' (Some r) = Err Dangling).
    { clear -HK Hnone. destruct HK; cbn; unfold b_resources, n_resources, b_first, n_first, n_next, deref; cbn; rewrite Hnone; reflexivity. }
    destruct F as [|F]; [lia|]. cbn [deallocate]. rewrite Hres. reflexivity.
Qed.
Print Assumptions C34_insert_child_always_refuted.

(** insert_over(end(), ...) on a non-empty tree throws after the node (or the
    subtree) was built.  What was built stays allocated, belongs to no tree, and is
    still there when the tree is destroyed. *)
Theorem C33_insert_over_leak_refuted :
  forall (V : Type) (EV : EqDecision V) (Nd : Type) (im : node_impl V Nd) (K : kind_data V Nd) (F : nat) (al : allocator Nd),
  tree_kind V EV Nd im K -> (N.of_nat F <= W64)%N ->
  forall (w : world Nd) (M M1 : gmap tid (C K)) (i : tid) (c : C K) (src : source V) (x : X K) (pos : iter),
  consistent K w M -> M !! i = Some c -> croot K c <> None -> gives K w M i src x M1 -> fits F w src ->
  (forall j, src <> SrcMove j) -> it_cur pos = None ->
  exists w' u, insert_over F im al w i pos src = Throw w' /\ cvals K u = x /\ crep K (w_heap w') u /\
    (forall a, a ∈ caddrs K u -> w_heap w !! a = None /\ is_Some (w_heap w' !! a) /\
       forall k d, M !! k = Some d -> a ∉ caddrs K d) /\
    exists w'', destroy F im w' i = Ok w'' /\ crep K (w_heap w'') u /\ forall a, a ∈ caddrs K u -> is_Some (w_heap w'' !! a).
Proof.
  intros V EV Nd im K F al HK HFW w M M1 i c src x pos Hw Hi Hne Hg Hf Hm Hcur. pose proof (kind_is_ok F al HK) as KO.
  pose proof Hw as H. apply (to_holds F _ al _ HK HFW) in H.
  destruct (insert_over_throw F im al K KO HFW w M i c src x M1 pos H Hi Hne Hg Hf Hcur) as (w' & E & Ex & H' & _ & HE).
  destruct (HE Hm) as (u & -> & Hu & Hpl). exists w', u. split; [exact Ex|]. split; [exact Hu|].
  assert (Hrep : crep K (w_heap w') u) by (destruct H' as [_ Hh]; eapply heap_ok_in; [exact Hh|left]).
  assert (Hnew : forall a, a ∈ caddrs K u -> w_heap w !! a = None) by (destruct src; try exact Hpl; destruct (Hm j eq_refl)).
  split; [exact Hrep|]. split.
  - intros a Ha. split; [exact (Hnew a Ha)|]. split; [exact (k_dom _ _ _ _ KO _ _ _ Hrep Ha)|].
    intros k d Hk Hd. specialize (Hnew a Ha). assert (Hs : is_Some (w_heap w !! a)) by (apply (wo_owned _ _ _ _ _ Hw); eauto).
    destruct Hs; congruence.
  - pose proof (holds_size _ _ _ _ _ _ _ _ H Hi) as Lc. unfold fits in Hf.
    assert (Hi' : exists w1, clear F im w' i = Ok w1 /\ holds (croot K) (caddrs K) (crep K) w1 (<[i := cnil K]> M) [u] /\ True).
    { destruct (clear_ok F im al K KO w' M [u] i c H' Hi ltac:(lia)) as (w1 & E1 & H1 & _). eauto. }
    destruct Hi' as (w1 & E1 & H1 & _). unfold destroy. rewrite E1. cbn [mbind res_bind]. eexists. split; [reflexivity|]. cbn [w_heap].
    assert (Hrep1 : crep K (w_heap w1) u) by (destruct H1 as [_ Hh]; eapply heap_ok_in; [exact Hh|left]).
    split; [exact Hrep1|]. intros a Ha. exact (k_dom _ _ _ _ KO _ _ _ Hrep1 Ha).
Qed.
Print Assumptions C33_insert_over_leak_refuted.

(** *** Cases met *)
Example C34_always_used :
  exists w', insert_child 100 (nary_impl nat) (first_fit _) true false ex_nw 1%positive (Iter PreOrder None (Some 1%positive) [] None) (SrcMove 2%positive) = Throw w' /\
    destroy 100 (nary_impl nat) w' 2%positive = Err Dangling.
Proof.
  destruct (C34_insert_child_always_refuted nat _ _ _ _ 100 (first_fit _) (nary_tree_kind nat _) ex_word ex_nw ex_nM 1%positive 2%positive (Some ex_nary) (Some (Rose (7%positive, 70) [])) 7%positive
    true false (Iter PreOrder None (Some 1%positive) [] None) ex_nw_ok eq_refl eq_refl ltac:(discriminate) eq_refl ltac:(vm_compute; lia) (or_introl eq_refl)) as (w' & E & _ & _ & Ed). eauto.
Qed.
Example C33_leak_used :
  exists w' u, insert_over 100 (nary_impl nat) (first_fit _) ex_nw 1%positive (Iter PreOrder None (Some 1%positive) [] None) (SrcCopy 1%positive) = Throw w' /\
    nvals u = nvals (Some ex_nary).
Proof.
  destruct (C33_insert_over_leak_refuted nat _ _ _ _ 100 (first_fit _) (nary_tree_kind nat _) ex_word ex_nw ex_nM ex_nM 1%positive (Some ex_nary) (SrcCopy 1%positive) (nvals (Some ex_nary))
    (Iter PreOrder None (Some 1%positive) [] None) ex_nw_ok eq_refl ltac:(discriminate) (GCopy (nary_kind nat) ex_nw ex_nM 1%positive 1%positive (Some ex_nary) eq_refl) ltac:(vm_compute; lia) ltac:(discriminate) eq_refl)
    as (w' & u & E & Hu & _). eauto.
Qed.
