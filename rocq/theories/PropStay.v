(** PropStay.v: iterators and modifications (C56, C57). *)
From Verif Require Import Base Spec EditSpec StructNode BinaryNode NaryNode Nav Policy Tree Rep User World Kinds TreeSpec
  BinRep NaryRep Iter IterTrees IterMain IterProofs TreeOps TreeNary TreeFacts EditFacts RoseFacts NavFacts PropEdit StarMain History Examples Examples2 LeafSpec LeafStay BfsStay.

(** *** C56: [it] was at node [a] of the tree with contents [c]; whatever happened
    since, if [a] is a node of a tree (contents [c']) with the same root, then [it]
    is an iterator of that tree at [a]: the loop from it visits the rest of the
    tree's present order, and [++] and [--] move along that order. *)
Theorem C56_stay_binary :
  forall (V : Type) (EV : EqDecision V) (F : nat) (h : gmap addr (bnode V)) (c : bin (addr * V)) (w' : world (bnode V)) (M' : gmap tid (bin (addr * V)))
    (i : tid) (c' : bin (addr * V)) (a : addr) (k : kind) (it it0 : iter),
  (N.of_nat F <= W64)%N -> k = PreOrder \/ k = PostOrder \/ k = InOrder ->
  bin_in h c -> a ∈ baddrs c -> iterator_at F (binary_impl V) h k (Some a) (baddr c) = Ok it0 -> same_iter it it0 ->
  consistent (binary_kind V) w' M' -> size (w_heap w') < F -> M' !! i = Some c' -> baddr c' = baddr c -> a ∈ baddrs c' ->
  exists l1 y l2, bin_order k c' = l1 ++ y :: l2 /\ fst y = a /\
    iterate_from F (binary_impl V) (w_heap w') it k (baddr c') = Ok (y :: l2) /\
    (forall ms j, position (length (bin_order k c')) ms (length l1) = Some j ->
       exists it', run F (binary_impl V) (w_heap w') ms it = Ok it' /\ it_cur it' = nth_addr (bin_order k c') j).
Proof.
  intros V EV F h c w' M' i c' a k it it0 HFW Hk Hc Ha E0 Hs Hw HF Hi Hroot Ha'.
  pose proof Hw as H. apply (to_holds F _ (first_fit _) _ (binary_tree_kind V EV) HFW) in H.
  assert (Ht : bin_in (w_heap w') c') by (pose proof (holds_rep _ _ _ _ _ _ _ _ H Hi) as Hrep; exists None; exact Hrep).
  assert (Hsz : bin_size c' < F).
  { pose proof (holds_size _ _ _ _ _ _ _ _ H Hi) as Hl. cbn in Hl. rewrite length_baddrs in Hl. lia. }
  assert (Hne : exists r, baddr c = Some r) by (destruct c as [|[? ?] ? ?]; [apply elem_of_nil in Ha as []|eexists; reflexivity]). destruct Hne as [r Er]. rewrite Hroot, Er in *.
  assert (Htw : two_way_bin k) by (unfold two_way_bin, two_way_nary; destruct Hk as [-> |[-> | ->]]; auto).
  assert (Hin : a ∈ map fst (bin_order k c')) by (rewrite bin_order_perm by exact Htw; exact Ha').
  apply elem_of_list_fmap in Hin as ([a0 v] & Ea & Hin). cbn in Ea. subst a0. apply elem_of_list_split in Hin as (l1 & l2 & El).
  assert (Eat : forall h', iterator_at F (binary_impl V) h' k (Some a) (Some r) = Ok it0).
  { intros h'. rewrite <- E0. destruct Hk as [-> |[-> | ->]]; reflexivity. }
  assert (Hkind : it_kind it <> Fixed).
  { destruct Hs as (G & _). rewrite G. pose proof (Eat h) as E1. destruct Hk as [-> |[-> | ->]]; injection E1 as <-; discriminate. }
  exists l1, (a, v), l2. split; [exact El|]. split; [reflexivity|]. split.
  - assert (Hr0 : it_cur it0 = Some a /\ it_root it0 = Some r) by (pose proof (Eat h) as E1; destruct Hk as [-> |[-> | ->]]; injection E1 as <-; split; reflexivity).
    destruct (p_change_policy_binary V EV F (w_heap w') c' k it0 l1 l2 (a, v) Ht Hsz Htw El (proj1 Hr0)) as (it2 & E2 & _ & _ & W2).
    { rewrite Hroot. exact (proj2 Hr0). }
    unfold it_other_policy in E2. rewrite (proj1 Hr0), (proj2 Hr0) in E2. unfold iterator_at in Eat. rewrite Eat in E2. injection E2 as <-.
    rewrite Hroot in W2. rewrite <- W2. unfold iterate_from. destruct (tree_end _ _ _ _) as [e|]; [|reflexivity]. cbn [mbind res_bind]. apply same_walk; assumption.
  - intros ms j Hp.
    assert (Hlen : length l1 <= length (bin_order k c')) by (rewrite El, app_length; lia).
    destruct (p_moves_binary V EV F (w_heap w') c' k ms (length l1) j Ht Hsz Htw Hlen Hp) as (it1 & it' & _ & E1 & E2 & E3 & _).
    assert (Hn : nth_addr (bin_order k c') (length l1) = Some a) by (unfold nth_addr; rewrite El, map_app, nth_error_app2; rewrite map_length; [rewrite Nat.sub_diag; reflexivity|lia]).
    rewrite Hn, Hroot, Eat in E1. injection E1 as <-.
    pose proof (same_run F (binary_impl V) (w_heap w') ms it it0 Hs Hkind) as Hsr. rewrite E2 in Hsr. unfold same_res in Hsr.
    destruct (run F (binary_impl V) (w_heap w') ms it) as [it1|]; [|contradiction]. exists it1. split; [reflexivity|]. rewrite <- E3. apply Hsr.
Qed.
Print Assumptions C56_stay_binary.

Theorem C56_stay_nary :
  forall (V : Type) (EV : EqDecision V) (F : nat) (h : gmap addr (nnode V)) (c : option (rose (addr * V))) (w' : world (nnode V)) (M' : gmap tid (option (rose (addr * V))))
    (i : tid) (c' : option (rose (addr * V))) (a : addr) (k : kind) (it it0 : iter),
  (N.of_nat F <= W64)%N -> k = PreOrder \/ k = PostOrder ->
  onary_in h c -> a ∈ naddrs c -> iterator_at F (nary_impl V) h k (Some a) (nroot c) = Ok it0 -> same_iter it it0 ->
  consistent (nary_kind V) w' M' -> size (w_heap w') < F -> M' !! i = Some c' -> nroot c' = nroot c -> a ∈ naddrs c' ->
  exists l1 y l2, nary_order k c' = l1 ++ y :: l2 /\ fst y = a /\
    iterate_from F (nary_impl V) (w_heap w') it k (nroot c') = Ok (y :: l2) /\
    (forall ms j, position (length (nary_order k c')) ms (length l1) = Some j ->
       exists it', run F (nary_impl V) (w_heap w') ms it = Ok it' /\ it_cur it' = nth_addr (nary_order k c') j).
Proof.
  intros V EV F h c w' M' i c' a k it it0 HFW Hk Hc Ha E0 Hs Hw HF Hi Hroot Ha'.
  pose proof Hw as H. apply (to_holds F _ (first_fit _) _ (nary_tree_kind V EV) HFW) in H.
  assert (Ht : onary_in (w_heap w') c') by (pose proof (holds_rep _ _ _ _ _ _ _ _ H Hi) as Hrep; destruct c' as [t|]; [exists None, None, None, (szt 0); exact Hrep|exact I]).
  assert (Hsz : nsize c' < F).
  { pose proof (holds_size _ _ _ _ _ _ _ _ H Hi) as Hl. cbn in Hl. destruct c' as [t|]; cbn in *; [unfold raddrs in Hl; rewrite map_length, length_preorder in Hl|]; lia. }
  assert (Hne : exists r, nroot c = Some r) by (destruct c; [eexists; reflexivity|apply elem_of_nil in Ha as []]). destruct Hne as [r Er]. rewrite Hroot, Er in *.
  assert (Htw : two_way_nary k) by (unfold two_way_bin, two_way_nary; destruct Hk as [-> | ->]; auto).
  assert (Hin : a ∈ map fst (nary_order k c')) by (rewrite nary_order_perm by exact Htw; exact Ha').
  apply elem_of_list_fmap in Hin as ([a0 v] & Ea & Hin). cbn in Ea. subst a0. apply elem_of_list_split in Hin as (l1 & l2 & El).
  assert (Eat : forall h', iterator_at F (nary_impl V) h' k (Some a) (Some r) = Ok it0).
  { intros h'. rewrite <- E0. destruct Hk as [-> | ->]; reflexivity. }
  assert (Hkind : it_kind it <> Fixed).
  { destruct Hs as (G & _). rewrite G. pose proof (Eat h) as E1. destruct Hk as [-> | ->]; injection E1 as <-; discriminate. }
  exists l1, (a, v), l2. split; [exact El|]. split; [reflexivity|]. split.
  - assert (Hr0 : it_cur it0 = Some a /\ it_root it0 = Some r) by (pose proof (Eat h) as E1; destruct Hk as [-> | ->]; injection E1 as <-; split; reflexivity).
    destruct (p_change_policy_nary V EV F (w_heap w') c' k it0 l1 l2 (a, v) Ht Hsz Htw El (proj1 Hr0)) as (it2 & E2 & _ & _ & W2).
    { rewrite Hroot. exact (proj2 Hr0). }
    unfold it_other_policy in E2. rewrite (proj1 Hr0), (proj2 Hr0) in E2. unfold iterator_at in Eat. rewrite Eat in E2. injection E2 as <-.
    rewrite Hroot in W2. rewrite <- W2. unfold iterate_from. destruct (tree_end _ _ _ _) as [e|]; [|reflexivity]. cbn [mbind res_bind]. apply same_walk; assumption.
  - intros ms j Hp.
    assert (Hlen : length l1 <= length (nary_order k c')) by (rewrite El, app_length; lia).
    destruct (p_moves_nary V EV F (w_heap w') c' k ms (length l1) j Ht Hsz Htw Hlen Hp) as (it1 & it' & _ & E1 & E2 & E3 & _).
    assert (Hn : nth_addr (nary_order k c') (length l1) = Some a) by (unfold nth_addr; rewrite El, map_app, nth_error_app2; rewrite map_length; [rewrite Nat.sub_diag; reflexivity|lia]).
    rewrite Hn, Hroot, Eat in E1. injection E1 as <-.
    pose proof (same_run F (nary_impl V) (w_heap w') ms it it0 Hs Hkind) as Hsr. rewrite E2 in Hsr. unfold same_res in Hsr.
    destruct (run F (nary_impl V) (w_heap w') ms it) as [it1|]; [|contradiction]. exists it1. split; [reflexivity|]. rewrite <- E3. apply Hsr.
Qed.
Print Assumptions C56_stay_nary.

(** An iterator at node 2 made before node 3 is erased, used after it. *)
Definition ex_left : rose (addr * nat) := Rose (1%positive, 10) [Rose (2%positive, 20) []; Rose (4%positive, 40) []].
Example C56_used : exists it w' l1 y l2,
  erase 100 (nary_impl nat) ex_nw 1%positive (Iter PostOrder (Some 3%positive) (Some 1%positive) [] None) = Ret it w' /\
  nary_order PreOrder (Some ex_left) = l1 ++ y :: l2 /\ fst y = 2%positive /\
  iterate_from 100 (nary_impl nat) (w_heap w') (Iter PreOrder (Some 2%positive) (Some 1%positive) [] (Some 2%positive)) PreOrder (Some 1%positive) = Ok (y :: l2).
Proof.
  destruct C30_used as (it & w' & E & H & _).
  assert (Hsz : size (w_heap w') < 100).
  { assert (Hx : match erase 100 (nary_impl nat) ex_nw 1%positive (Iter PostOrder (Some 3%positive) (Some 1%positive) [] None) with Ret _ w => bool_decide (size (w_heap w) < 100) | _ => false end = true) by (vm_compute; reflexivity).
    rewrite E in Hx. apply bool_decide_eq_true in Hx. exact Hx. }
  destruct (C56_stay_nary nat _ 100 ex_nheap (Some ex_nary) w' (<[1%positive := Some ex_left]> ex_nM) 1%positive (Some ex_left) 2%positive PreOrder
    (Iter PreOrder (Some 2%positive) (Some 1%positive) [] (Some 2%positive)) (Iter PreOrder (Some 2%positive) (Some 1%positive) [] (Some 2%positive))
    ex_word (or_introl eq_refl) ex_nary_in) as (l1 & y & l2 & Eo & Hy & Hw & _).
  - vm_compute. set_solver +.
  - reflexivity.
  - repeat split.
  - exact H.
  - exact Hsz.
  - apply lookup_insert.
  - reflexivity.
  - vm_compute. set_solver +.
  - exists it, w', l1, y, l2. auto.
Qed.

(** The same for the policy siblings: [a] is the child number [n] of the node of
    the subtree [s]. *)
Theorem C56_siblings_binary :
  forall (V : Type) (EV : EqDecision V) (F : nat) (h : gmap addr (bnode V)) (r : addr) (w' : world (bnode V)) (M' : gmap tid (bin (addr * V)))
    (i : tid) (c' : bin (addr * V)) (u s : rose (addr * V)) (n : nat) (a : addr) (it it0 : iter),
  (N.of_nat F <= W64)%N -> iterator_at F (binary_impl V) h Siblings (Some a) (Some r) = Ok it0 -> same_iter it it0 ->
  consistent (binary_kind V) w' M' -> size (w_heap w') < F -> M' !! i = Some c' -> bin_forest c' = [u] -> raddr u = r ->
  rsubtree s u -> nth_addr (map label (children s)) n = Some a ->
  iterate_from F (binary_impl V) (w_heap w') it Siblings (Some r) = Ok (skipn n (map label (children s))).
Proof.
  intros V EV F h r w' M' i c' u s n a it it0 HFW E0 Hs Hw HF Hi Hu Hr Hsub Hn.
  pose proof Hw as H. apply (to_holds F _ (first_fit _) _ (binary_tree_kind V EV) HFW) in H.
  assert (Ht : bin_in (w_heap w') c') by (pose proof (holds_rep _ _ _ _ _ _ _ _ H Hi) as Hrep; exists None; exact Hrep).
  assert (Hsz : bin_size c' < F) by (pose proof (holds_size _ _ _ _ _ _ _ _ H Hi) as Hl; cbn in Hl; rewrite length_baddrs in Hl; lia).
  assert (Hln : n < length (children s)) by (rewrite <- (map_length label), <- (map_length fst); apply nth_error_Some; unfold nth_addr in Hn; rewrite Hn; discriminate).
  destruct (p_siblings_binary V EV F (w_heap w') c' u s n Ht Hsz Hu Hsub Hln) as (it2 & E2 & W2 & _).
  rewrite Hn, (bin_root c' u Hu), Hr in E2. rewrite (bin_root c' u Hu), Hr in W2. rewrite <- W2.
  assert (Ei : it2 = it0) by (change (iterator_at F (binary_impl V) h Siblings (Some a) (Some r) = Ok it2) in E2; congruence). subst it2.
  unfold iterate_from. destruct (tree_end _ _ _ _) as [e|]; [|reflexivity]. cbn [mbind res_bind]. apply same_walk; [exact Hs|].
  destruct Hs as (-> & _). injection E0 as <-. discriminate.
Qed.
Print Assumptions C56_siblings_binary.
Theorem C56_siblings_nary :
  forall (V : Type) (EV : EqDecision V) (F : nat) (h : gmap addr (nnode V)) (w' : world (nnode V)) (M' : gmap tid (option (rose (addr * V))))
    (i : tid) (t s : rose (addr * V)) (n : nat) (a : addr) (it it0 : iter),
  (N.of_nat F <= W64)%N -> iterator_at F (nary_impl V) h Siblings (Some a) (Some (raddr t)) = Ok it0 -> same_iter it it0 ->
  consistent (nary_kind V) w' M' -> size (w_heap w') < F -> M' !! i = Some (Some t) ->
  rsubtree s t -> nth_addr (map label (children s)) n = Some a ->
  iterate_from F (nary_impl V) (w_heap w') it Siblings (Some (raddr t)) = Ok (skipn n (map label (children s))).
Proof.
  intros V EV F h w' M' i t s n a it it0 HFW E0 Hs Hw HF Hi Hsub Hn.
  pose proof Hw as H. apply (to_holds F _ (first_fit _) _ (nary_tree_kind V EV) HFW) in H.
  assert (Ht : nary_in (w_heap w') t) by (pose proof (holds_rep _ _ _ _ _ _ _ _ H Hi) as Hrep; exists None, None, None, (szt 0); exact Hrep).
  assert (Hsz : rsize t < F) by (pose proof (holds_size _ _ _ _ _ _ _ _ H Hi) as Hl; cbn in Hl; unfold raddrs in Hl; rewrite map_length, length_preorder in Hl; lia).
  assert (Hln : n < length (children s)) by (rewrite <- (map_length label), <- (map_length fst); apply nth_error_Some; unfold nth_addr in Hn; rewrite Hn; discriminate).
  destruct (p_siblings_nary V EV F (w_heap w') t s n Ht Hsz Hsub Hln) as (it2 & E2 & W2 & _).
  rewrite Hn in E2. rewrite <- W2.
  assert (Ei : it2 = it0) by (change (iterator_at F (nary_impl V) h Siblings (Some a) (Some (raddr t)) = Ok it2) in E2; congruence). subst it2.
  unfold iterate_from. destruct (tree_end _ _ _ _) as [e|]; [|reflexivity]. cbn [mbind res_bind]. apply same_walk; [exact Hs|].
  destruct Hs as (-> & _). injection E0 as <-. discriminate.
Qed.
Print Assumptions C56_siblings_nary.

(** *** C57: not so for breadth-first.  Whenever the next node [y] in breadth-first
    order was released in the meantime, [++] reads the released node, in every
    tree, at every node [x] and whatever else happened. *)
Lemma bfs_dangling {V Nd} F (im : node_impl V Nd) h h' (r x y : addr) it it1 :
  iterator_at F im h BreadthFirst (Some x) (Some r) = Ok it -> incr F im h it = Ok it1 -> it_cur it1 = Some y ->
  nav_next (tree_nav im h' (Some r)) (Some y) = Err Dangling -> incr F im h' it = Err Dangling.
Proof.
  intros E Ei Ec Hy. unfold iterator_at, get_instance, fix_navigator_root in E. cbn [mbind res_bind] in E.
  destruct (manage_initial_status _ _ _) as [open|]; [|discriminate]. cbn [mbind res_bind] in E. injection E as <-.
  unfold incr, it_incr in Ei |- *. cbn [it_cur it_root it_kind it_open increment_impl] in Ei |- *.
  unfold bfs_increment in Ei |- *. destruct open as [|q rest].
  - injection Ei as <-. discriminate Ec.
  - assert (Hq : q = Some y).
    { destruct (nav_next _ q) as [sb|]; [|discriminate Ei]. cbn [mbind res_bind] in Ei. destruct (nav_first _ q) as [fc|]; [|discriminate Ei]. cbn [mbind res_bind] in Ei. injection Ei as <-. exact Ec. }
    subst q. rewrite Hy. reflexivity.
Qed.
Lemma second_not_head {A B} (f : A -> B) r l (l1 l2 : list A) x y : NoDup (map f (r :: l)) -> r :: l = l1 ++ x :: y :: l2 -> f y <> f r.
Proof.
  intros Hn E He. rewrite E in Hn. destruct l1 as [|z l1]; injection E as -> ->.
  - apply NoDup_cons in Hn as [Hn _]. apply Hn. rewrite <- He. cbn. left.
  - rewrite map_app in Hn. apply NoDup_app in Hn as (_ & Hn & _). apply (Hn (f z)); [left|]. rewrite <- He. cbn. right. left.
Qed.
Lemma at_length {V} (l1 l2 : list (addr * V)) x : nth_addr (l1 ++ x :: l2) (length l1) = Some (fst x).
Proof. unfold nth_addr. rewrite map_app, nth_error_app2; rewrite map_length; [rewrite Nat.sub_diag; reflexivity|lia]. Qed.
Lemma at_next {V} (l1 l2 : list (addr * V)) x y : nth_addr (l1 ++ x :: y :: l2) (S (length l1)) = Some (fst y).
Proof. unfold nth_addr. rewrite map_app, nth_error_app2; rewrite map_length; [replace (S (length l1) - length l1) with 1 by lia; reflexivity|lia]. Qed.

Theorem C57_breadth_first_nary_refuted :
  forall (V : Type) (EV : EqDecision V) (F : nat) (h h' : gmap addr (nnode V)) (t : rose (addr * V)) (l1 l2 : list (addr * V)) (x y : addr * V) (it : iter),
  nary_in h t -> rsize t < F -> levelorder t = l1 ++ x :: y :: l2 ->
  iterator_at F (nary_impl V) h BreadthFirst (Some (fst x)) (Some (raddr t)) = Ok it ->
  h' !! fst y = None -> incr F (nary_impl V) h' it = Err Dangling.
Proof.
  intros V EV F h h' t l1 l2 x y it Ht HF El E Hy.
  destruct (p_moves_nary V EV F h (Some t) BreadthFirst [true] (length l1) (S (length l1)) Ht HF) as (it1 & it' & _ & E1 & E2 & E3 & _).
  { right. right. reflexivity. } { change (nary_order BreadthFirst (Some t)) with (levelorder t). rewrite El, app_length. cbn. lia. }
  { change (nary_order BreadthFirst (Some t)) with (levelorder t). rewrite El, app_length. cbn [position length]. rewrite (proj2 (Nat.eqb_neq _ _)) by lia. reflexivity. }
  change (nary_order BreadthFirst (Some t)) with (levelorder t) in *. change (nroot (Some t)) with (Some (raddr t)) in *.
  rewrite El, at_length, E in E1. injection E1 as <-. rewrite El, at_next in E3.
  cbn [run] in E2. destruct (incr F (nary_impl V) h it) as [it1|] eqn:Ei; [|discriminate]. injection E2 as ->.
  eapply bfs_dangling; [exact E|exact Ei|exact E3|].
  cbn. unfold base_unless_root, base_is_root. rewrite ptr_eqb_false.
  - cbn. unfold n_next, deref. rewrite Hy. reflexivity.
  - intros He. injection He as He. revert He. destruct t as [r cs]. change (raddr (Rose r cs)) with (fst r).
    eapply (second_not_head fst r); [|exact El].
    change (NoDup (map fst (levelorder (Rose r cs)))). rewrite RowFacts.levelorder_perm. destruct Ht as (? & ? & ? & ? & _ & Hn). exact Hn.
Qed.
Print Assumptions C57_breadth_first_nary_refuted.

Theorem C57_breadth_first_binary_refuted :
  forall (V : Type) (EV : EqDecision V) (F : nat) (h h' : gmap addr (bnode V)) (c : bin (addr * V)) (l1 l2 : list (addr * V)) (x y : addr * V) (it : iter),
  bin_in h c -> bin_size c < F -> bin_order BreadthFirst c = l1 ++ x :: y :: l2 ->
  iterator_at F (binary_impl V) h BreadthFirst (Some (fst x)) (baddr c) = Ok it ->
  h' !! fst y = None -> incr F (binary_impl V) h' it = Err Dangling.
Proof.
  intros V EV F h h' c l1 l2 x y it Ht HF El E Hy.
  destruct (p_moves_binary V EV F h c BreadthFirst [true] (length l1) (S (length l1)) Ht HF) as (it1 & it' & _ & E1 & E2 & E3 & _).
  { right. right. right. reflexivity. } { rewrite El, app_length. lia. }
  { rewrite El, app_length. cbn [position length]. rewrite (proj2 (Nat.eqb_neq _ _)) by lia. reflexivity. }
  rewrite El, at_length, E in E1. injection E1 as <-. rewrite El, at_next in E3.
  cbn [run] in E2. destruct (incr F (binary_impl V) h it) as [it1|] eqn:Ei; [|discriminate]. injection E2 as ->.
  destruct c as [|[a v] l r]; [destruct l1; discriminate El|]. change (baddr (BNode (a, v) l r)) with (Some a) in E.
  eapply bfs_dangling; [exact E|exact Ei|exact E3|].
  cbn. unfold base_unless_root, base_is_root. rewrite ptr_eqb_false.
  - cbn. unfold b_next, b_is_left, deref. rewrite Hy. reflexivity.
  - intros He. injection He as He. revert He. change a with (fst (a, v)).
    pose proof (bin_nd h _ Ht BreadthFirst) as Hn. revert Hn El. cbn [bin_order bin_forest flat_map rose_order]. rewrite app_nil_r. unfold levelorder at 1 2. cbn [height seq flat_map row map label app].
    intros Hn El. eapply (second_not_head fst (a, v)); [exact Hn|exact El].
Qed.
Print Assumptions C57_breadth_first_binary_refuted.

(** A breadth-first iterator at node 2, made before node 3 is erased. *)
Example C57_used : exists it it0 w',
  erase 100 (nary_impl nat) ex_nw 1%positive (Iter PostOrder (Some 3%positive) (Some 1%positive) [] None) = Ret it w' /\
  iterator_at 100 (nary_impl nat) ex_nheap BreadthFirst (Some 2%positive) (Some 1%positive) = Ok it0 /\
  2%positive ∈ raddrs ex_left /\ incr 100 (nary_impl nat) (w_heap w') it0 = Err Dangling.
Proof.
  destruct C30_used as (it & w' & E & _).
  assert (Hx : match erase 100 (nary_impl nat) ex_nw 1%positive (Iter PostOrder (Some 3%positive) (Some 1%positive) [] None) with Ret _ w => match w_heap w !! 3%positive with None => true | _ => false end | _ => false end = true) by (vm_compute; reflexivity).
  rewrite E in Hx. destruct (w_heap w' !! 3%positive) eqn:E3; [discriminate|].
  eexists it, _, w'. split; [exact E|]. split; [vm_compute; reflexivity|]. split; [vm_compute; set_solver +|].
  eapply (C57_breadth_first_nary_refuted nat _ 100 ex_nheap (w_heap w') ex_nary [(1%positive, 10)] _ (2%positive, 20) (3%positive, 30)); [exact ex_nary_in|vm_compute; lia|reflexivity|vm_compute; reflexivity|exact E3].
Qed.

(** What is true of breadth-first: if the nodes that waited when the iterator was made
    ([waiting]) are those that wait at that node now, the loop from it visits the rest
    of the breadth-first order of the tree as it is now. *)
Theorem C57_stay_nary_partial :
  forall (V : Type) (EV : EqDecision V) (F : nat) (h h' : gmap addr (nnode V)) (t t' : rose (addr * V)) (y : addr * V) (q : list addr) (it it0 : iter) (l1 l2 : list (addr * V)),
  nary_in h t -> rsize t < F -> nary_in h' t' -> rsize t' < F -> raddr t' = raddr t -> fst y ∈ raddrs t ->
  iterator_at F (nary_impl V) h BreadthFirst (Some (fst y)) (Some (raddr t)) = Ok it0 -> same_iter it it0 ->
  waiting (rose_map fst t) (fst y) q -> waiting (rose_map fst t') (fst y) q -> levelorder t' = l1 ++ y :: l2 ->
  iterate_from F (nary_impl V) h' it BreadthFirst (Some (raddr t')) = Ok (y :: l2).
Proof.
  intros V EV F h h' t t' y q it it0 l1 l2 Ht HF Ht' HF' Hroot Hy E0 Hs Hw Hw' El. rewrite Hroot.
  pose proof (nary_seen F h' t' Ht' HF') as Hs'. rewrite Hroot in Hs'.
  exact (bfs_stay F _ h h' _ t t' y (fst y) q it0 it l1 l2 (nary_seen F h t Ht HF) Hs' Hy E0 Hs Hw Hw' El eq_refl).
Qed.
Print Assumptions C57_stay_nary_partial.
Theorem C57_stay_binary_partial :
  forall (V : Type) (EV : EqDecision V) (F : nat) (h h' : gmap addr (bnode V)) (c c' : bin (addr * V)) (t t' : rose (addr * V)) (y : addr * V) (q : list addr) (it it0 : iter) (l1 l2 : list (addr * V)),
  bin_in h c -> bin_size c < F -> bin_forest c = [t] -> bin_in h' c' -> bin_size c' < F -> bin_forest c' = [t'] -> raddr t' = raddr t -> fst y ∈ raddrs t ->
  iterator_at F (binary_impl V) h BreadthFirst (Some (fst y)) (baddr c) = Ok it0 -> same_iter it it0 ->
  waiting (rose_map fst t) (fst y) q -> waiting (rose_map fst t') (fst y) q -> levelorder t' = l1 ++ y :: l2 ->
  iterate_from F (binary_impl V) h' it BreadthFirst (baddr c') = Ok (y :: l2).
Proof.
  intros V EV F h h' c c' t t' y q it it0 l1 l2 Hc HF Ht Hc' HF' Ht' Hroot Hy E0 Hs Hw Hw' El.
  rewrite (bin_root c t Ht) in E0. rewrite (bin_root c' t' Ht'), Hroot.
  pose proof (bin_seen F h' c' t' Hc' HF' Ht') as Hs'. rewrite Hroot in Hs'.
  exact (bfs_stay F _ h h' _ t t' y (fst y) q it0 it l1 l2 (bin_seen F h c t Hc HF Ht) Hs' Hy E0 Hs Hw Hw' El eq_refl).
Qed.
Print Assumptions C57_stay_binary_partial.
(** The iterator at node 2 of 10(20(-, 40(50, -)), 30), made before node 5 was erased:
    nodes 3 and 4 wait in both trees. *)
Example C57_stay_used : exists it it0 w',
  erase 100 (binary_impl nat) ex_bw 1%positive (Iter PostOrder (Some 5%positive) (Some 1%positive) [] None) = Ret it w' /\
  iterator_at 100 (binary_impl nat) ex_bheap BreadthFirst (Some 2%positive) (Some 1%positive) = Ok it0 /\
  iterate_from 100 (binary_impl nat) (w_heap w') it0 BreadthFirst (Some 1%positive) = Ok [(2%positive, 20); (3%positive, 30); (4%positive, 40)].
Proof.
  destruct (C29_erase nat _ 100 ex_word ex_bw ex_bM 1%positive ex_bin 5%positive (Iter PostOrder (Some 5%positive) (Some 1%positive) [] None) ex_bw_ok)
    as (it & w' & E & H & _); [vm_compute; lia|reflexivity|vm_compute; set_solver +|reflexivity..|].
  set (it0 := Iter BreadthFirst (Some 2%positive) (Some 1%positive) [Some 3%positive; Some 4%positive] (Some 2%positive)).
  exists it, it0, w'. split; [exact E|]. split; [vm_compute; reflexivity|].
  destruct (bin_forest ex_bin) as [|t [|]] eqn:Et; [discriminate| |discriminate].
  destruct (bin_forest (bprune [5%positive] ex_bin)) as [|t' [|]] eqn:Et'; [discriminate| |discriminate].
  apply (C57_stay_binary_partial nat _ 100 ex_bheap (w_heap w') ex_bin (bprune [5%positive] ex_bin) t t' (2%positive, 20) [3%positive; 4%positive] it0 it0 [(1%positive, 10)]);
    vm_compute in Et, Et'; injection Et as <-; injection Et' as <-.
  - exact ex_bin_in.
  - vm_compute. lia.
  - reflexivity.
  - apply (to_holds 100 _ (first_fit _) _ (binary_tree_kind nat _) ex_word) in H. exists None.
    exact (holds_rep _ _ _ _ _ _ _ _ H (lookup_insert _ 1%positive _)).
  - vm_compute. lia.
  - reflexivity.
  - reflexivity.
  - vm_compute. set_solver +.
  - vm_compute. reflexivity.
  - repeat split.
  - apply (w_below _ 0 [] 1%positive [] (Rose 2%positive [Rose 4%positive [Rose 5%positive []]]) [Rose 3%positive []] []). reflexivity.
  - apply (w_below _ 0 [] 1%positive [] (Rose 2%positive [Rose 4%positive []]) [Rose 3%positive []] []). reflexivity.
  - reflexivity.
Qed.
