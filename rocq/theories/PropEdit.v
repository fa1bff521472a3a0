(** PropEdit.v: the editing operations: insert_over, insert_child_front/back (and
    the emplace_ variants), erase (C27-C30, C33, C34).

    Conventions: see PropTree.v.  [gives K w M i src x M1]: the argument [src] of
    the call stands for the contents [x]; [M1] is [M], except that a moved tree
    is empty.  [placed w M src u]: the nodes of [u] are those of the moved tree,
    or newly allocated.  [fits F w src]: the loop bound [F] exceeds the number of
    nodes before and after.  [csubst]/[csub]/[cadd] are bsubst/bsub/badd and
    nsubst/nsub/nadd of EditSpec.v. *)
From Verif Require Import Base Spec EditSpec RoseFacts NavFacts NodeFacts NaryEdit StructNode BinaryNode NaryNode Nav Policy Tree Rep User World Kinds TreeSpec
  TreeOps TreeOps2 TreeOps3 TreeOps4 History TreeFacts IterMain SibFacts BinRep NaryRep IterProofs Examples Examples2 EditFacts.

(** *** Positions: every iterator reached from a node of the tree by [++] and
    [--] stands at its node, which is what the theorems below ask of a position. *)
Theorem C27_positions_binary :
  forall (V : Type) (EV : EqDecision V) (F : nat) (h : gmap addr (bnode V)) (t : bin (addr * V)) (k : kind) (ms : list bool) (i j : nat) (a : addr),
  bin_in h t -> bin_size t < F -> two_way_bin k ->
  i <= length (bin_order k t) -> position (length (bin_order k t)) ms i = Some j -> nth_addr (bin_order k t) j = Some a ->
  exists it it', iterator_at F (binary_impl V) h k (nth_addr (bin_order k t) i) (baddr t) = Ok it /\
    run F (binary_impl V) h ms it = Ok it' /\ stands F (binary_impl V) h (baddr t) a it'.
Proof.
  intros V EV F h t k ms i j a Hin HF Hk Hi Hp Ha.
  destruct (p_moves_binary V EV F h t k ms i j Hin HF Hk Hi Hp) as (it & it' & it2 & E1 & E2 & E3 & E4 & Hs & _).
  exists it, it'. split; [exact E1|]. split; [exact E2|]. rewrite Ha in E4. eapply same_iter_stands; [exact E4|exact Hs|].
  destruct t as [|[x v] l r]; [|discriminate]. destruct k, j; discriminate.
Qed.
Print Assumptions C27_positions_binary.
Theorem C27_positions_nary :
  forall (V : Type) (EV : EqDecision V) (F : nat) (h : gmap addr (nnode V)) (t : option (rose (addr * V))) (k : kind) (ms : list bool) (i j : nat) (a : addr),
  onary_in h t -> nsize t < F -> two_way_nary k ->
  i <= length (nary_order k t) -> position (length (nary_order k t)) ms i = Some j -> nth_addr (nary_order k t) j = Some a ->
  exists it it', iterator_at F (nary_impl V) h k (nth_addr (nary_order k t) i) (nroot t) = Ok it /\
    run F (nary_impl V) h ms it = Ok it' /\ stands F (nary_impl V) h (nroot t) a it'.
Proof.
  intros V EV F h t k ms i j a Hin HF Hk Hi Hp Ha.
  destruct (p_moves_nary V EV F h t k ms i j Hin HF Hk Hi Hp) as (it & it' & it2 & E1 & E2 & E3 & E4 & Hs & _).
  exists it, it'. split; [exact E1|]. split; [exact E2|]. rewrite Ha in E4. eapply same_iter_stands; [exact E4|exact Hs|].
  destruct t as [t|]; [discriminate|]. destruct k, j; discriminate.
Qed.
Print Assumptions C27_positions_nary.

(** *** C27: replacing a subtree *)
Theorem C27_insert_over :
  forall (V : Type) (EV : EqDecision V) (Nd : Type) (im : node_impl V Nd) (K : kind_data V Nd) (F : nat) (al : allocator Nd),
  tree_kind V EV Nd im K -> (N.of_nat F <= W64)%N ->
  forall (w : world Nd) (M M1 : gmap tid (C K)) (i : tid) (c : C K) (src : source V) (x : X K) (a : addr) (pos : iter),
  consistent K w M -> M !! i = Some c -> gives K w M i src x M1 -> fits F w src ->
  a ∈ caddrs K c -> stands F im (w_heap w) (croot K c) a pos ->
  (x = cvals K (cnil K) -> croot K c <> Some a -> crepl K a (cnil K) c) ->
  exists u it w', insert_over F im al w i pos src = Ret it w' /\ cvals K u = x /\ placed K w M src u /\
    consistent K w' (<[i := csubst K a u c]> M1) /\
    (forall y, y ∈ caddrs K (csub K a c) -> w_heap w' !! y = None) /\
    it_kind it = it_kind pos /\ it_cur it = croot K u /\
    (croot K c <> Some a -> forall b, croot K u = Some b -> stands F im (w_heap w') (croot K c) b it).
Proof.
  intros V EV Nd im K F al HK HFW w M M1 i c src x a pos Hw Hi Hg Hf Ha Hpos Hx. pose proof Hw as H. apply (to_holds F _ al _ HK HFW) in H.
  destruct (holds_get _ _ _ _ _ _ _ _ H Hi) as (t & Ht & _).
  destruct (insert_over_ok F im al K (kind_is_ok F al HK) HFW w M i c t src x M1 a pos H Hi Ht Hg Hf Ha Hpos) as (u & it & w' & E & Hu & Hp & H' & Hk & Hr & Hc & Hs & _).
  { intros Hne u Hu. destruct HK; [exact I|]. destruct u as [u|]; [exact I|]. apply Hx; [symmetry; exact Hu|exact Hne]. }
  exists u, it, w'. split; [exact E|]. split; [exact Hu|]. split; [exact Hp|]. apply (to_holds F _ al _ HK HFW) in H'. split; [exact H'|].
  split; [|split; [exact Hk|split; [exact Hc|exact Hs]]]. intros y Hy.
  pose proof (proj2 (proj2 (wo_tree _ _ _ _ _ Hw i t c Ht Hi))) as Hrep.
  pose proof (sub_in F im al K HK HFW _ _ _ _ Hrep Ha Hy) as Hyc.
  eapply (released F im al K HK HFW w M); [exact Hw|exact Hi|exact H'|exact Hyc|..].
  - intros k d Hk' Hne Hd. rewrite lookup_insert_ne in Hk' by congruence. destruct Hg as [| | | |j' d' Hj' Hd'].
    1-4: eauto. apply lookup_insert_Some in Hk' as [[<- <-]|[_ Hk']]; [|eauto].
    rewrite (nil_addrs F im al K (kind_is_ok F al HK)) in Hd. apply elem_of_nil in Hd as [].
  - intros c' Hc'. rewrite lookup_insert in Hc'. injection Hc' as <-. apply (sub_out F im al K HK HFW (w_heap w)); try assumption.
    intros Hyu. unfold placed in Hp. inversion Hg; subst src.
    5: { cbn in Hp. match goal with Hn : _ <> i |- _ => apply Hn end. eapply (wo_disjoint _ _ _ _ _ Hw); [exact Hp|exact Hi|exact Hyu|exact Hyc]. }
    all: apply Hp in Hyu; exact (old_in F im al K HK HFW _ _ _ _ _ Hw Hi Hyc Hyu).
Qed.
Print Assumptions C27_insert_over.

(** Into an empty tree. *)
Theorem C27_insert_over_empty :
  forall (V : Type) (EV : EqDecision V) (Nd : Type) (im : node_impl V Nd) (K : kind_data V Nd) (F : nat) (al : allocator Nd),
  tree_kind V EV Nd im K -> (N.of_nat F <= W64)%N ->
  forall (w : world Nd) (M M1 : gmap tid (C K)) (i : tid) (src : source V) (x : X K) (pos : iter),
  consistent K w M -> M !! i = Some (cnil K) -> gives K w M i src x M1 -> fits F w src -> it_cur pos = None ->
  exists u w', insert_over F im al w i pos src = Ret pos w' /\ cvals K u = x /\ placed K w M src u /\ consistent K w' (<[i := u]> M1).
Proof.
  intros V EV Nd im K F al HK HFW w M M1 i src x pos Hw Hi Hg Hf Hpos. apply (to_holds F _ al _ HK HFW) in Hw.
  destruct (insert_over_empty_ok F im al K (kind_is_ok F al HK) HFW w M i src x M1 pos Hw Hi Hg Hf Hpos) as (u & w' & E & Hu & Hp & H' & _).
  exists u, w'. split; [exact E|]. split; [exact Hu|]. split; [exact Hp|]. apply (to_holds F _ al _ HK HFW), H'.
Qed.
Print Assumptions C27_insert_over_empty.

(** Replacing node 3 (value 30) of the example by the literal 5(6), with a
    breadth-first iterator. *)
Example C27_used :
  exists pos u it w', iterator_at 100 (nary_impl nat) (w_heap ex_nw) BreadthFirst (Some 3%positive) (Some 1%positive) = Ok pos /\
    insert_over 100 (nary_impl nat) (first_fit _) ex_nw 1%positive pos (SrcStruct (eval_lit (LNode 5 [LNode 6 []]))) = Ret it w' /\
    nvals u = Some (Rose 5 [Rose 6 []]) /\ consistent (nary_kind nat) w' (<[1%positive := nsubst 3%positive u (Some ex_nary)]> ex_nM) /\
    w_heap w' !! 5%positive = None.
Proof.
  eexists. destruct (C27_insert_over nat _ _ _ _ 100 (first_fit _) (nary_tree_kind nat _) ex_word ex_nw ex_nM ex_nM 1%positive (Some ex_nary)
    (SrcStruct (eval_lit (LNode 5 [LNode 6 []]))) (Some (Rose 5 [Rose 6 []])) 3%positive (Iter BreadthFirst (Some 3%positive) (Some 1%positive) [Some 4%positive; Some 5%positive] (Some 3%positive)) ex_nw_ok eq_refl)
    as (u & it & w' & E & Hu & _ & H & Hf & _).
  - apply (GStruct (nary_kind nat) ex_nw ex_nM 1%positive 5 [LNode 6 []]). vm_compute. tauto.
  - vm_compute. lia.
  - vm_compute. set_solver +.
  - split; [reflexivity|]. split; [reflexivity|]. intros _. eexists. split; [vm_compute; reflexivity|reflexivity].
  - discriminate.
  - exists u, it, w'. split; [vm_compute; reflexivity|]. split; [exact E|]. split; [exact Hu|]. split; [exact H|]. apply Hf. vm_compute. set_solver +.
Qed.

(** *** C28: adding a child *)
Theorem C28_insert_child :
  forall (V : Type) (EV : EqDecision V) (Nd : Type) (im : node_impl V Nd) (K : kind_data V Nd) (F : nat) (al : allocator Nd),
  tree_kind V EV Nd im K -> (N.of_nat F <= W64)%N ->
  forall (w : world Nd) (M M1 : gmap tid (C K)) (i : tid) (c : C K) (first emplace : bool) (src : source V) (x : X K) (a : addr) (pos : iter),
  consistent K w M -> M !! i = Some c -> gives K w M i src x M1 -> fits F w src ->
  a ∈ caddrs K c -> it_cur pos = Some a -> ~ cfull K a c ->
  exists u it w', insert_child F im al first emplace w i pos src = Ret it w' /\ cvals K u = x /\ placed K w M src u /\
    consistent K w' (<[i := cput K first a u c]> M1) /\
    it_kind it = it_kind pos /\ stands F im (w_heap w') (croot K c) a it.
Proof.
  intros V EV Nd im K F al HK HFW w M M1 i c first emplace src x a pos Hw Hi Hg Hf Ha Hpos Hful. apply (to_holds F _ al _ HK HFW) in Hw.
  destruct (holds_get _ _ _ _ _ _ _ _ Hw Hi) as (t & Ht & _).
  destruct (insert_child_ok F im al K (kind_is_ok F al HK) HFW first emplace w M i c t src x M1 a pos Hw Hi Ht Hg Hf Ha Hpos Hful) as (u & it & w' & E & Hu & Hp & H' & Hk & Hs & _).
  exists u, it, w'. split; [exact E|]. split; [exact Hu|]. split; [exact Hp|]. split; [apply (to_holds F _ al _ HK HFW), H'|]. auto.
Qed.
Print Assumptions C28_insert_child.
(** N-ary nodes always have room; binary nodes unless they have two children. *)
Theorem C28_room :
  (forall (V : Type) (a : addr) (c : option (rose (addr * V))), ~ cfull (nary_kind V) a c) /\
  (forall (V : Type) (a : addr) (c : bin (addr * V)), cfull (binary_kind V) a c <-> exists x l r, bsub a c = BNode x l r /\ l <> BLeaf /\ r <> BLeaf).
Proof.
  split; [intros V a c H; exact H|]. intros V a c. cbn. unfold bfull. split.
  - destruct (bsub a c) as [|x [|y l1 l2] [|z r1 r2]]; try contradiction. intros _. repeat eexists; discriminate.
  - intros (x & l & r & -> & Hl & Hr). destruct l; [congruence|]. destruct r; [congruence|]. exact I.
Qed.
Print Assumptions C28_room.
(** Full: the call throws and nothing at all has changed. *)
Theorem C28_full_throws :
  forall (V : Type) (EV : EqDecision V) (F : nat) (al : allocator (bnode V)), (N.of_nat F <= W64)%N ->
  forall (w : world (bnode V)) (M M1 : gmap tid (bin (addr * V))) (i : tid) (c : bin (addr * V)) (first emplace : bool) (src : source V) (x : bin V) (a : addr) (pos : iter),
  consistent (binary_kind V) w M -> M !! i = Some c -> gives (binary_kind V) w M i src x M1 -> fits F w src -> (forall j, src <> SrcMove j) ->
  a ∈ baddrs c -> it_cur pos = Some a -> bfull a c ->
  insert_child F (binary_impl V) al first emplace w i pos src = Throw w.
Proof.
  intros V EV F al HFW w M M1 i c first emplace src x a pos Hw Hi Hg Hf Hm Ha Hpos Hful. pose proof (binary_tree_kind V EV) as HK.
  pose proof Hw as H. apply (to_holds F _ al _ HK HFW) in H.
  destruct (insert_child_throw F _ al _ (kind_is_ok F al HK) HFW first emplace w M i c src x M1 pos H Hi Hg Hf Hm ltac:(eauto)) as (w' & E & H' & Htr).
  apply (to_holds F _ al _ HK HFW) in H'. rewrite E. f_equal. pose proof (heap_unique HK _ _ _ Hw H') as Hh. destruct w, w'. cbn in *. congruence.
Qed.
Print Assumptions C28_full_throws.

Example C28_used : exists u it w', insert_child 100 (binary_impl nat) (first_fit _) true false ex_bw 1%positive (Iter PreOrder (Some 2%positive) (Some 1%positive) [] None) (SrcMove 2%positive) = Ret it w' /\
  bin_map snd u = BNode 70 BLeaf BLeaf /\ consistent (binary_kind nat) w' (<[1%positive := badd true 2%positive u ex_bin]> (<[2%positive := BLeaf]> ex_bM)).
Proof.
  destruct (C28_insert_child nat _ _ _ _ 100 (first_fit _) (binary_tree_kind nat _) ex_word ex_bw ex_bM (<[2%positive := BLeaf]> ex_bM) 1%positive ex_bin true false
    (SrcMove 2%positive) (BNode 70 BLeaf BLeaf) 2%positive (Iter PreOrder (Some 2%positive) (Some 1%positive) [] None) ex_bw_ok eq_refl)
    as (u & it & w' & E & Hu & _ & H & _).
  - apply (GMove (binary_kind nat) ex_bw ex_bM 1%positive 2%positive (BNode (7%positive, 70) BLeaf BLeaf)); [discriminate|reflexivity].
  - vm_compute. lia.
  - vm_compute. set_solver +.
  - reflexivity.
  - vm_compute. tauto.
  - exists u, it, w'. split; [exact E|]. split; [exact Hu|]. cbn in Hu. destruct u as [|[y v] l r]; [discriminate|exact H].
Qed.
(** The root of the example has two children. *)
Example C28_used_full : bfull 1%positive ex_bin /\ insert_child 100 (binary_impl nat) (first_fit _) true false ex_bw 1%positive (Iter PreOrder (Some 1%positive) (Some 1%positive) [] None) (SrcCopy 2%positive) = Throw ex_bw.
Proof.
  split; [exact I|]. eapply (C28_full_throws nat _ 100 (first_fit _) ex_word ex_bw ex_bM); [exact ex_bw_ok|reflexivity|..].
  - apply (GCopy (binary_kind nat) ex_bw ex_bM 1%positive 2%positive (BNode (7%positive, 70) BLeaf BLeaf)). reflexivity.
  - vm_compute. lia.
  - discriminate.
  - vm_compute. left.
  - reflexivity.
  - exact I.
Qed.

(** *** C29: erasing in binary trees *)
Theorem C29_erase :
  forall (V : Type) (EV : EqDecision V) (F : nat), (N.of_nat F <= W64)%N ->
  forall (w : world (bnode V)) (M : gmap tid (bin (addr * V))) (i : tid) (c : bin (addr * V)) (a : addr) (pos : iter),
  consistent (binary_kind V) w M -> size (w_heap w) < F -> M !! i = Some c ->
  a ∈ baddrs c -> it_cur pos = Some a -> it_root pos = baddr c ->
  exists it w', erase F (binary_impl V) w i pos = Ret it w' /\
    consistent (binary_kind V) w' (<[i := bprune [a] c]> M) /\
    (forall y, y ∈ baddrs (bsub a c) -> w_heap w' !! y = None) /\
    it_kind it = PostOrder /\ it_root it = baddr (bprune [a] c) /\
    (forall l1 l2, map fst (bin_order PostOrder c) = l1 ++ a :: l2 -> it_cur it = head l2).
Proof.
  intros V EV F HFW w M i c a pos Hw HF Hi Ha Hcur Hroot. pose proof (binary_tree_kind V EV) as HK. pose proof (first_fit (bnode V)) as al.
  pose proof Hw as H. apply (to_holds F _ al _ HK HFW) in H. pose proof (holds_size _ _ _ _ _ _ _ _ H Hi) as Lc.
  destruct (holds_get _ _ _ _ _ _ _ _ H Hi) as (t & Ht & _).
  destruct (erase_ok F _ al _ (kind_is_ok F al HK) w M [] i c t a pos H Hi Ht Ha Hcur Hroot ltac:(intros _; exact I) ltac:(lia)) as (it & w' & E & H' & _ & Hk & Hr & Hc1 & Hc2).
  apply (to_holds F _ al _ HK HFW) in H'. rewrite bprune_cons, bprune_nil.
  exists it, w'. split; [exact E|]. split; [exact H'|]. split; [|split; [exact Hk|split; [exact Hr|]]].
  - intros y Hy. pose proof (proj2 (proj2 (wo_tree _ _ _ _ _ Hw i t c Ht Hi))) as Hrep.
    pose proof (sub_in F _ al _ HK HFW _ _ _ _ Hrep Ha Hy) as Hyc. eapply (gone F _ al _ HK HFW); [exact Hw|exact Hi|exact H'|exact Hyc|].
    apply (sub_out F _ al _ HK HFW (w_heap w)); try assumption. apply not_elem_of_nil.
  - intros l1 l2 Hl. destruct (decide (baddr c = Some a)) as [Er|Er].
    + rewrite (Hc1 Er). destruct c as [|[x v] l r]; [discriminate|]. cbn in Er. injection Er as ->.
      destruct (wo_tree _ _ _ _ _ Hw i t _ Ht Hi) as (_ & _ & (_ & Hnd)). 
      assert (Hp : Permutation (map fst (bin_order PostOrder (BNode (a, v) l r))) (baddrs (BNode (a, v) l r))) by (apply (k_post_perm _ _ _ _ (kind_is_ok F al HK))).
      rewrite <- Hp in Hnd. destruct l2 as [|y l2]; [reflexivity|]. exfalso.
      assert (El : map fst (bin_order PostOrder (BNode (a, v) l r)) = (map fst (flat_map postorder (bin_forest l ++ bin_forest r))) ++ [a]).
      { unfold bin_order, rose_order. cbn [bin_forest flat_map postorder]. rewrite app_nil_r, map_app. reflexivity. }
      rewrite El in Hl, Hnd. clear -Hl Hnd. revert l1 Hl Hnd. generalize (map fst (flat_map postorder (bin_forest l ++ bin_forest r))) as l0.
      induction l0 as [|z l0 IH]; intros [|u l1] Hl Hnd; cbn in Hl.
      * discriminate.
      * injection Hl as _ Hl. destruct l1; discriminate.
      * injection Hl as -> _. cbn in Hnd. apply NoDup_cons in Hnd as [Hn _]. destruct Hn. apply elem_of_app. right. left.
      * injection Hl as -> Hl. cbn in Hnd. apply NoDup_cons in Hnd as [_ Hnd]. eapply IH; eassumption.
    + apply (Hc2 Er l1 l2 Hl).
Qed.
Print Assumptions C29_erase.

(** erase(end()): throws and changes nothing, unless the tree is empty. *)
Theorem C29_erase_end :
  forall (V : Type) (EV : EqDecision V) (F : nat), (N.of_nat F <= W64)%N ->
  forall (w : world (bnode V)) (M : gmap tid (bin (addr * V))) (i : tid) (c : bin (addr * V)) (pos : iter),
  consistent (binary_kind V) w M -> size (w_heap w) < F -> M !! i = Some c -> it_cur pos = None -> it_root pos = baddr c ->
  (c <> BLeaf -> erase F (binary_impl V) w i pos = Throw w) /\
  (c = BLeaf -> exists it, erase F (binary_impl V) w i pos = Ret it w /\ it_cur it = None /\ it_root it = None).
Proof.
  intros V EV F HFW w M i c pos Hw HF Hi Hcur Hroot. pose proof (binary_tree_kind V EV) as HK. pose proof (first_fit (bnode V)) as al.
  apply (to_holds F _ al _ HK HFW) in Hw. destruct (erase_end F _ al _ HK HFW w M i c pos Hw Hi Hroot Hcur HF) as [H1 H2]. split.
  - intros Hc. apply H1. destruct c as [|[x v] l r]; [congruence|discriminate].
  - intros ->. destruct (H2 eq_refl) as (it & E & _ & Hc & Hr). eauto.
Qed.
Print Assumptions C29_erase_end.

(** erase(first, last) for two post-order iterators of the tree, the elements
    from [first] to [last] being [ds]. *)
Theorem C29_erase_range :
  forall (V : Type) (EV : EqDecision V) (F : nat), (N.of_nat F <= W64)%N ->
  forall (w : world (bnode V)) (M : gmap tid (bin (addr * V))) (i : tid) (c : bin (addr * V)) (first last : iter) (pre ds post : list addr),
  consistent (binary_kind V) w M -> size (w_heap w) < F -> M !! i = Some c ->
  map fst (bin_order PostOrder c) = pre ++ ds ++ post -> it_kind first = PostOrder ->
  it_cur first = head (ds ++ post) -> it_cur last = head post -> it_root first = baddr c -> it_root last = baddr c ->
  exists it w', erase_range F (binary_impl V) w i first last = Ret it w' /\
    consistent (binary_kind V) w' (<[i := bprune ds c]> M) /\
    it_kind it = PostOrder /\ it_root it = baddr (bprune ds c) /\ it_cur it = head post.
Proof.
  intros V EV F HFW w M i c first last pre ds post Hw HF Hi Hl Hk Hf He Hrf Hre. pose proof (binary_tree_kind V EV) as HK. pose proof (first_fit (bnode V)) as al.
  apply (to_holds F _ al _ HK HFW) in Hw. pose proof (holds_size _ _ _ _ _ _ _ _ Hw Hi) as Lc.
  destruct (erase_range_ok F _ al _ (kind_is_ok F al HK) HFW w M i c first last pre ds post Hw Hi ltac:(lia) Hl Hk Hf He Hrf Hre (erasable_binary ds c)) as (it & w' & E & H' & Hk' & Hc' & Hr').
  rewrite prune_binary in H', Hr'. exists it, w'. split; [exact E|]. split; [apply (to_holds F _ al _ HK HFW), H'|]. auto.
Qed.
Print Assumptions C29_erase_range.

Example C29_used : exists it w', erase 100 (binary_impl nat) ex_bw 1%positive (Iter PostOrder (Some 4%positive) (Some 1%positive) [] None) = Ret it w' /\
  consistent (binary_kind nat) w' (<[1%positive := BNode (1%positive, 10) (BNode (2%positive, 20) BLeaf BLeaf) (BNode (3%positive, 30) BLeaf BLeaf)]> ex_bM) /\
  w_heap w' !! 5%positive = None /\ it_cur it = Some 2%positive.
Proof.
  destruct (C29_erase nat _ 100 ex_word ex_bw ex_bM 1%positive ex_bin 4%positive (Iter PostOrder (Some 4%positive) (Some 1%positive) [] None) ex_bw_ok)
    as (it & w' & E & H & Hf & _ & _ & Hc); [vm_compute; lia|reflexivity|vm_compute; set_solver +|reflexivity..|].
  exists it, w'. split; [exact E|]. split; [exact H|]. split; [apply Hf; vm_compute; set_solver +|]. apply (Hc [5%positive] [2%positive; 3%positive; 1%positive]). reflexivity.
Qed.
Example C29_used_range : exists it w', erase_range 100 (binary_impl nat) ex_bw 1%positive (Iter PostOrder (Some 4%positive) (Some 1%positive) [] None) (Iter PostOrder (Some 1%positive) (Some 1%positive) [] None) = Ret it w' /\
  consistent (binary_kind nat) w' (<[1%positive := BNode (1%positive, 10) BLeaf BLeaf]> ex_bM) /\ it_cur it = Some 1%positive.
Proof.
  destruct (C29_erase_range nat _ 100 ex_word ex_bw ex_bM 1%positive ex_bin (Iter PostOrder (Some 4%positive) (Some 1%positive) [] None) (Iter PostOrder (Some 1%positive) (Some 1%positive) [] None)
    [5%positive] [4; 2; 3]%positive [1%positive] ex_bw_ok) as (it & w' & E & H & _ & _ & Hc); [vm_compute; lia|reflexivity..|].
  exists it, w'. auto.
Qed.

(** *** C30: erasing in n-ary trees.  Right for the root and for children with a
    previous and a next sibling; what is missing, and false, are first and last
    children. *)
Theorem C30_erase_partial :
  forall (V : Type) (EV : EqDecision V) (F : nat), (N.of_nat F <= W64)%N ->
  forall (w : world (nnode V)) (M : gmap tid (option (rose (addr * V)))) (i : tid) (t : rose (addr * V)) (a : addr) (pos : iter),
  consistent (nary_kind V) w M -> size (w_heap w) < F -> M !! i = Some (Some t) ->
  raddr t = a \/ middle_child a t -> it_cur pos = Some a -> it_root pos = Some (raddr t) ->
  exists it w', erase F (nary_impl V) w i pos = Ret it w' /\
    consistent (nary_kind V) w' (<[i := rprune [a] t]> M) /\
    (forall y, y ∈ naddrs (rsub a t) -> w_heap w' !! y = None) /\
    it_kind it = PostOrder /\ it_root it = nroot (rprune [a] t) /\
    (raddr t = a -> it_cur it = None) /\
    (raddr t <> a -> forall l1 l2, map fst (postorder t) = l1 ++ a :: l2 -> it_cur it = head l2).
Proof.
  intros V EV F HFW w M i c a pos Hw HF Hi Hor Hcur Hroot. pose proof (nary_tree_kind V EV) as HK. pose proof (first_fit (nnode V)) as al.
  assert (Ha : a ∈ raddrs c).
  { destruct Hor as [<-|(q & ls & s & rs & Hs & <- & _)].
    - destruct c as [[x v] cs]. left.
    - apply elem_of_list_fmap. exists (label s). split; [reflexivity|]. eapply sub_children_in; [exact Hs|]. cbn. rewrite map_app. apply elem_of_app. right. left. }
  pose proof Hw as H. apply (to_holds F _ al _ HK HFW) in H. pose proof (holds_size _ _ _ _ _ _ _ _ H Hi) as Lc.
  destruct (holds_get _ _ _ _ _ _ _ _ H Hi) as (t & Ht & _).
  destruct (erase_ok F _ al _ (kind_is_ok F al HK) w M [] i (Some c) t a pos H Hi Ht Ha Hcur Hroot) as (it & w' & E & H' & _ & Hk & Hr & Hc1 & Hc2).
  { intros Hne. destruct Hor as [E|Hm]; [|exact Hm]. destruct Hne. cbn. congruence. } { lia. }
  apply (to_holds F _ al _ HK HFW) in H'.
  assert (Ep : rprune [a] c = nsubst a None (Some c)).
  { rewrite rprune_cons. cbn. destruct (rsubst a None c); [apply rprune_nil|reflexivity]. }
  rewrite Ep. exists it, w'. split; [exact E|]. split; [exact H'|]. split; [|split; [exact Hk|split; [exact Hr|]]].
  - intros y Hy. pose proof (proj2 (proj2 (wo_tree _ _ _ _ _ Hw i t _ Ht Hi))) as Hrep.
    pose proof (sub_in F _ al _ HK HFW _ _ _ _ Hrep Ha Hy) as Hyc. eapply (gone F _ al _ HK HFW); [exact Hw|exact Hi|exact H'|exact Hyc|].
    apply (sub_out F _ al _ HK HFW (w_heap w)); try assumption. apply not_elem_of_nil.
  - split.
    + intros Er. apply Hc1. cbn. congruence.
    + intros Er l1 l2 Hl. apply (Hc2 ltac:(cbn; congruence) l1 l2 Hl).
Qed.
Print Assumptions C30_erase_partial.


(** The same for erase(first, last), if each removed node is the root or a middle
    child when its turn comes. *)
Theorem C30_erase_range_partial :
  forall (V : Type) (EV : EqDecision V) (F : nat), (N.of_nat F <= W64)%N ->
  forall (w : world (nnode V)) (M : gmap tid (option (rose (addr * V)))) (i : tid) (c : option (rose (addr * V))) (first last : iter) (pre ds post : list addr),
  consistent (nary_kind V) w M -> size (w_heap w) < F -> M !! i = Some c ->
  map fst (nary_order PostOrder c) = pre ++ ds ++ post -> it_kind first = PostOrder ->
  it_cur first = head (ds ++ post) -> it_cur last = head post -> it_root first = nroot c -> it_root last = nroot c ->
  erasable (nary_kind V) ds c ->
  exists it w', erase_range F (nary_impl V) w i first last = Ret it w' /\
    consistent (nary_kind V) w' (<[i := nprune ds c]> M) /\
    it_kind it = PostOrder /\ it_root it = nroot (nprune ds c) /\ it_cur it = head post.
Proof.
  intros V EV F HFW w M i c first last pre ds post Hw HF Hi Hl Hk Hf He Hrf Hre Hex. pose proof (nary_tree_kind V EV) as HK. pose proof (first_fit (nnode V)) as al.
  apply (to_holds F _ al _ HK HFW) in Hw. pose proof (holds_size _ _ _ _ _ _ _ _ Hw Hi) as Lc.
  destruct (erase_range_ok F _ al _ (kind_is_ok F al HK) HFW w M i c first last pre ds post Hw Hi ltac:(lia) Hl Hk Hf He Hrf Hre Hex) as (it & w' & E & H' & Hk' & Hc' & Hr').
  rewrite prune_nary in H', Hr'. exists it, w'. split; [exact E|]. split; [apply (to_holds F _ al _ HK HFW), H'|]. auto.
Qed.
Print Assumptions C30_erase_range_partial.

(** Erasing the first (or only) child of a node of an n-ary tree dereferences a
    null pointer: in every tree. *)
Theorem C30_first_child_refuted :
  forall (V : Type) (EV : EqDecision V) (F : nat), (N.of_nat F <= W64)%N ->
  forall (w : world (nnode V)) (M : gmap tid (option (rose (addr * V)))) (i : tid) (t : rose (addr * V)) (q : addr * V) (s : rose (addr * V)) (rs : list (rose (addr * V))) (pos : iter),
  consistent (nary_kind V) w M -> size (w_heap w) < F -> M !! i = Some (Some t) ->
  rsubtree (Rose q (s :: rs)) t -> it_cur pos = Some (raddr s) -> it_root pos = Some (raddr t) ->
  erase F (nary_impl V) w i pos = Bad NullDeref.
Proof.
  intros V EV F HFW w M i t [q v] s rs pos Hw HF Hi Hs Hcur Hroot. pose proof (nary_tree_kind V EV) as HK. pose proof (first_fit (nnode V)) as al.
  pose proof (kind_is_ok F al HK) as KO.
  assert (Ha : raddr s ∈ raddrs t).
  { apply elem_of_list_fmap. exists (label s). split; [reflexivity|]. eapply sub_children_in; [exact Hs|]. left. }
  destruct (wo_live _ _ _ _ _ Hw i) as [_ Hl]. destruct Hl as [tr Ht]; [eauto|].
  destruct (wo_tree _ _ _ _ _ Hw i tr _ Ht Hi) as (Hr & _ & Hrep). pose proof Hw as H. apply (to_holds F _ al _ HK HFW) in H.
  pose proof (holds_size _ _ _ _ _ _ _ _ H Hi) as Lc.
  assert (Hne : raddr s <> raddr t).
  { destruct Hrep as (_ & Hnd). eapply child_ne_root; [exact Hnd|exact Hs|left]. }
  destruct (k_post_sub _ _ _ _ KO (w_heap w) (Some t) (raddr s) Hrep Ha) as (p1 & p2 & l & Hp & Hq & _).
  assert (Hps : cpost (nary_kind V) (Some t) = (p1 ++ l) ++ raddr s :: p2) by (rewrite Hp, Hq, <- !app_assoc; reflexivity).
  unfold erase. rewrite Hcur, Hroot. change (get_instance F (tree_nav (nary_impl V) (w_heap w)) PostOrder (Some (raddr s)) (Some (raddr t)))
    with (Ok (Iter PostOrder (Some (raddr s)) (Some (raddr t)) [] (Some (raddr s)))). cbn [res_out].
  rewrite (incr_post F _ al _ KO [] (w_heap w) (Some t) (raddr s) (raddr t) _ _ Hrep ltac:(lia) eq_refl Hps). cbn [res_out].
  destruct (k_update _ _ _ _ KO (w_heap w) (Some t) None (raddr s) (Iter PostOrder (Some (raddr s)) (Some (raddr t)) [] (Some (raddr s))) Hrep I Ha ltac:(lia)) as (pos' & Hup & _).
  { split; [reflexivity|]. split; [reflexivity|]. discriminate. }
  unfold erase_subtree, get_tree. rewrite Ht. cbn [res_out it_cur]. rewrite Hr. cbn [croot nary_kind nroot fmap option_fmap option_map is_null negb guard_res mbind res_bind].
  cbn [croot nary_kind nroot fmap option_fmap option_map] in Hup. rewrite Hup. cbn [res_out]. rewrite ptr_eqb_false by congruence.
  unfold replace_node, get_tree. rewrite Ht. cbn [mbind res_bind]. rewrite Hr. cbn [croot nary_kind nroot fmap option_fmap option_map is_null negb guard_res mbind res_bind].
  assert (Hn : n_replace_with F (w_heap w) (Some (raddr s)) None = Err NullDeref).
  { apply rsubtree_plug in Hs as (cx & E). destruct Hrep as (Hrep & _). rewrite <- E in Hrep. change (plug cx (Rose (q, v) (s :: rs))) with (plug (([], (q, v), rs) :: cx) s) in Hrep.
    eapply n_replace_none_first; [exact Hrep|lia]. }
  cbn [ni_replace_with nary_impl]. rewrite Hn. reflexivity.
Qed.
Print Assumptions C30_first_child_refuted.

(** Node 5 of the example is a first child. *)
Example C30_used_first : erase 100 (nary_impl nat) ex_nw 1%positive (Iter PostOrder (Some 5%positive) (Some 1%positive) [] None) = Bad NullDeref.
Proof.
  apply (C30_first_child_refuted nat _ 100 ex_word ex_nw ex_nM 1%positive ex_nary (3%positive, 30) (Rose (5%positive, 50) []) [Rose (6%positive, 60) []] _ ex_nw_ok);
    [vm_compute; lia|reflexivity|exact ex_nsub_ok|reflexivity..].
Qed.
(** Node 3 is a middle child. *)
Example C30_used : exists it w', erase 100 (nary_impl nat) ex_nw 1%positive (Iter PostOrder (Some 3%positive) (Some 1%positive) [] None) = Ret it w' /\
  consistent (nary_kind nat) w' (<[1%positive := Some (Rose (1%positive, 10) [Rose (2%positive, 20) []; Rose (4%positive, 40) []])]> ex_nM) /\
  w_heap w' !! 6%positive = None /\ it_cur it = Some 4%positive.
Proof.
  destruct (C30_erase_partial nat _ 100 ex_word ex_nw ex_nM 1%positive ex_nary 3%positive (Iter PostOrder (Some 3%positive) (Some 1%positive) [] None) ex_nw_ok)
    as (it & w' & E & H & Hf & _ & _ & _ & Hc); [vm_compute; lia|reflexivity| |reflexivity..|].
  - right. exists (1%positive, 10), [Rose (2%positive, 20) []], ex_nsub, [Rose (4%positive, 40) []]. split; [apply rsub_here|]. split; [reflexivity|]. split; discriminate.
  - exists it, w'. split; [exact E|]. split; [exact H|]. split; [apply Hf; vm_compute; set_solver +|].
    apply (Hc ltac:(discriminate) [2; 5; 6]%positive [4; 1]%positive). reflexivity.
Qed.

(** Erasing the last child 40 of the root of 10(20, 30(50, 60), 40) returns, but
    a child 99 added to the root afterwards is not in the tree, and is still
    allocated once all trees are destroyed. *)
Theorem C30_last_child_refuted :
  exists (w : world (nnode nat)) (M : gmap tid (option (rose (addr * nat)))) (pos top : iter) it1 it2 (w1 w2 w3 w4 : world (nnode nat)),
  consistent (nary_kind nat) w M /\ M !! 1%positive = Some (Some ex_nary) /\ it_cur pos = Some 4%positive /\ it_root pos = Some 1%positive /\
  erase 100 (nary_impl nat) w 1%positive pos = Ret it1 w1 /\
  it_cur top = Some 1%positive /\ it_root top = Some 1%positive /\
  insert_child 100 (nary_impl nat) (first_fit _) false false w1 1%positive top (SrcValue 99) = Ret it2 w2 /\
  iterate 100 (nary_impl nat) (w_heap w2) PreOrder (Some 1%positive) = Ok [(1%positive, 10); (2%positive, 20); (3%positive, 30); (5%positive, 50); (6%positive, 60)] /\
  destroy 100 (nary_impl nat) w2 1%positive = Ok w3 /\ destroy 100 (nary_impl nat) w3 2%positive = Ok w4 /\
  map_to_list (w_trees w4) = [] /\ n_val (w_heap w4) (Some 8%positive) = Ok 99.
Proof.
  exists ex_nw, ex_nM, (Iter PostOrder (Some 4%positive) (Some 1%positive) [] None), (Iter PostOrder (Some 1%positive) (Some 1%positive) [] None).
  do 6 eexists. split; [exact ex_nw_ok|]. do 3 (split; [reflexivity|]). split; [vm_compute; reflexivity|]. do 2 (split; [reflexivity|]).
  split; [vm_compute; reflexivity|]. split; [vm_compute; reflexivity|]. split; [vm_compute; reflexivity|]. split; [vm_compute; reflexivity|]. split; vm_compute; reflexivity.
Qed.
Print Assumptions C30_last_child_refuted.

(** *** C33: failing insertions *)
(** insert_child_front/back and emplace_child_front/back, given anything but a
    moved tree, at end() or on a full node: nothing at all has changed. *)
Theorem C33_insert_child :
  forall (V : Type) (EV : EqDecision V) (Nd : Type) (im : node_impl V Nd) (K : kind_data V Nd) (F : nat) (al : allocator Nd),
  tree_kind V EV Nd im K -> (N.of_nat F <= W64)%N ->
  forall (w : world Nd) (M M1 : gmap tid (C K)) (i : tid) (c : C K) (first emplace : bool) (src : source V) (x : X K) (pos : iter),
  consistent K w M -> M !! i = Some c -> gives K w M i src x M1 -> fits F w src -> (forall j, src <> SrcMove j) ->
  it_cur pos = None \/ (exists a, it_cur pos = Some a /\ a ∈ caddrs K c) ->
  (insert_child F im al first emplace w i pos src = Throw w /\ (it_cur pos = None \/ exists a, it_cur pos = Some a /\ cfull K a c)) \/
  (exists it w', insert_child F im al first emplace w i pos src = Ret it w' /\ exists a, it_cur pos = Some a /\ ~ cfull K a c).
Proof.
  intros V EV Nd im K F al HK HFW w M M1 i c first emplace src x pos Hw Hi Hg Hf Hm Hor. pose proof Hw as H. apply (to_holds F _ al _ HK HFW) in H.
  assert (Hsame : forall w', consistent K w' M -> w_trees w' = w_trees w -> w' = w).
  { intros w' H' Htr. pose proof (heap_unique HK _ _ _ Hw H') as Hh. destruct w, w'. cbn in *. congruence. }
  destruct Hor as [Hn|(a & Hcur & Ha)].
  - left. destruct (insert_child_throw F _ al _ (kind_is_ok F al HK) HFW first emplace w M i c src x M1 pos H Hi Hg Hf Hm (or_introl Hn)) as (w' & E & H' & Htr).
    apply (to_holds F _ al _ HK HFW) in H'. rewrite E, (Hsame w' H' Htr). auto.
  - assert (Hd : cfull K a c \/ ~ cfull K a c).
    { destruct HK; [|right; intros []]. cbn. unfold bfull. destruct (bsub a c) as [|y [|z l1 l2] [|u r1 r2]]; tauto. }
    destruct Hd as [Hful|Hful].
    + left. destruct (insert_child_throw F _ al _ (kind_is_ok F al HK) HFW first emplace w M i c src x M1 pos H Hi Hg Hf Hm ltac:(eauto)) as (w' & E & H' & Htr).
      apply (to_holds F _ al _ HK HFW) in H'. rewrite E, (Hsame w' H' Htr). eauto.
    + right. destruct (holds_get _ _ _ _ _ _ _ _ H Hi) as (t & Ht & _).
      destruct (insert_child_ok F im al K (kind_is_ok F al HK) HFW first emplace w M i c t src x M1 a pos H Hi Ht Hg Hf Ha Hcur Hful) as (u & it & w' & E & _). eauto 10.
Qed.
Print Assumptions C33_insert_child.

(** insert_over/emplace_over at end() of a non-empty tree: the trees keep their
    nodes.  What is missing (and false, see below): the nodes [u] made by the
    call are still allocated. *)
Theorem C33_insert_over_partial :
  forall (V : Type) (EV : EqDecision V) (Nd : Type) (im : node_impl V Nd) (K : kind_data V Nd) (F : nat) (al : allocator Nd),
  tree_kind V EV Nd im K -> (N.of_nat F <= W64)%N ->
  forall (w : world Nd) (M M1 : gmap tid (C K)) (i : tid) (c : C K) (src : source V) (x : X K) (pos : iter),
  consistent K w M -> M !! i = Some c -> croot K c <> None -> gives K w M i src x M1 -> fits F w src -> it_cur pos = None ->
  exists w', insert_over F im al w i pos src = Throw w' /\
    (forall k t d, w_trees w' !! k = Some t -> M !! k = Some d -> t_root t = croot K d /\ crep K (w_heap w') d) /\
    (forall k, is_Some (w_trees w' !! k) <-> is_Some (M !! k)) /\
    (forall y n, w_heap w !! y = Some n -> w_heap w' !! y = Some n).
Proof.
  intros V EV Nd im K F al HK HFW w M M1 i c src x pos Hw Hi Hne Hg Hf Hcur. pose proof Hw as H. apply (to_holds F _ al _ HK HFW) in H.
  destruct (insert_over_throw F im al K (kind_is_ok F al HK) HFW w M i c src x M1 pos H Hi Hne Hg Hf Hcur) as (w' & E & Ex & H' & _).
  exists w'. split; [exact Ex|]. destruct H' as [Hl Hh]. 
  assert (Hcr : forall k d, M !! k = Some d -> crep K (w_heap w') d).
  { intros k d Hk. eapply heap_ok_in; [exact Hh|]. apply elem_of_app. right. apply elem_of_elems. eauto. }
  split; [|split].
  - intros k t d Ht Hk. specialize (Hl k). rewrite Ht, Hk in Hl. split; [tauto|eauto].
  - intros k. specialize (Hl k). destruct (w_trees w' !! k), (M !! k); try destruct Hl; split; eauto; intros []; discriminate.
  - intros y n Hy. destruct (proj1 (wo_owned _ _ _ _ _ Hw y) ltac:(eauto)) as (k & d & Hk & Hd).
    destruct (proj2 (wo_live _ _ _ _ _ Hw k) ltac:(eauto)) as [t Ht]. destruct (wo_tree _ _ _ _ _ Hw k t d Ht Hk) as (_ & _ & Hrep).
    rewrite <- (rep_lookup HK _ _ _ Hrep (Hcr k d Hk) y Hd). exact Hy.
Qed.
Print Assumptions C33_insert_over_partial.

(** insert_over(end(), 99) on a non-empty tree throws; the node it made is still
    allocated once all trees are destroyed. *)
Theorem C33_insert_over_refuted :
  exists (w : world (bnode nat)) (M : gmap tid (bin (addr * nat))) (pos : iter) (w1 w2 w3 : world (bnode nat)),
  consistent (binary_kind nat) w M /\ tree_end 100 (tree_nav (binary_impl nat) (w_heap w)) PreOrder (Some 1%positive) = Ok pos /\
  insert_over 100 (binary_impl nat) (first_fit _) w 1%positive pos (SrcValue 99) = Throw w1 /\
  destroy 100 (binary_impl nat) w1 1%positive = Ok w2 /\ destroy 100 (binary_impl nat) w2 2%positive = Ok w3 /\
  map_to_list (w_trees w3) = [] /\ b_value (w_heap w3) (Some 8%positive) = Ok 99.
Proof.
  exists ex_bw, ex_bM, (Iter PreOrder None (Some 1%positive) [] None). do 3 eexists. split; [exact ex_bw_ok|]. split; [reflexivity|].
  split; [vm_compute; reflexivity|]. split; [vm_compute; reflexivity|]. split; [vm_compute; reflexivity|]. split; vm_compute; reflexivity.
Qed.
Print Assumptions C33_insert_over_refuted.

(** erase(end()) throws exactly if the tree is not empty, and changes nothing. *)
Theorem C33_erase_end :
  forall (V : Type) (EV : EqDecision V) (Nd : Type) (im : node_impl V Nd) (K : kind_data V Nd) (F : nat),
  tree_kind V EV Nd im K -> (N.of_nat F <= W64)%N ->
  forall (w : world Nd) (M : gmap tid (C K)) (i : tid) (c : C K) (pos : iter),
  consistent K w M -> size (w_heap w) < F -> M !! i = Some c -> it_cur pos = None -> it_root pos = croot K c ->
  (croot K c <> None -> erase F im w i pos = Throw w) /\
  (croot K c = None -> exists it, erase F im w i pos = Ret it w /\ it_cur it = None).
Proof.
  intros V EV Nd im K F HK HFW w M i c pos Hw HF Hi Hcur Hroot. pose proof (first_fit Nd) as al.
  apply (to_holds F _ al _ HK HFW) in Hw. destruct (erase_end F _ al _ HK HFW w M i c pos Hw Hi Hroot Hcur HF) as [H1 H2]. split; [exact H1|].
  intros Hc. destruct (H2 Hc) as (it & E & _ & Hn & _). eauto.
Qed.
Print Assumptions C33_erase_end.

Example C33_used : insert_child 100 (nary_impl nat) (first_fit _) true true ex_nw 1%positive (Iter PreOrder None (Some 1%positive) [] None) (SrcCopy 1%positive) = Throw ex_nw.
Proof.
  destruct (C33_insert_child nat _ _ _ _ 100 (first_fit _) (nary_tree_kind nat _) ex_word ex_nw ex_nM ex_nM 1%positive (Some ex_nary) true true
    (SrcCopy 1%positive) (nvals (Some ex_nary)) (Iter PreOrder None (Some 1%positive) [] None) ex_nw_ok eq_refl) as [[E _]|(it & w' & _ & a & E & _)].
  - apply (GCopy (nary_kind nat) ex_nw ex_nM 1%positive 1%positive (Some ex_nary)). reflexivity.
  - vm_compute. lia.
  - discriminate.
  - auto.
  - exact E.
  - discriminate.
Qed.

(** *** C34: failing insertions of a moved tree *)
(** insert_over(end(), std::move(tree)): all the trees are as before; and moving a
    tree into itself changes nothing.  What is missing (and false): insert_child. *)
Theorem C34_insert_over_partial :
  forall (V : Type) (EV : EqDecision V) (Nd : Type) (im : node_impl V Nd) (K : kind_data V Nd) (F : nat) (al : allocator Nd),
  tree_kind V EV Nd im K -> (N.of_nat F <= W64)%N ->
  forall (w : world Nd) (M : gmap tid (C K)) (i j : tid) (c d : C K) (pos : iter),
  consistent K w M -> M !! i = Some c -> M !! j = Some d -> fits F w (@SrcMove V j) ->
  (i <> j -> croot K c <> None -> it_cur pos = None ->
   exists w', insert_over F im al w i pos (SrcMove j) = Throw w' /\ consistent K w' M /\ w_heap w' = w_heap w /\
     exists w'', destroy F im w' j = Ok w'' /\ consistent K w'' (delete j M)) /\
  (i = j -> insert_over F im al w i pos (SrcMove j) = Throw w /\ forall first emplace, insert_child F im al first emplace w i pos (SrcMove j) = Throw w).
Proof.
  intros V EV Nd im K F al HK HFW w M i j c d pos Hw Hi Hj Hf. pose proof Hw as H. apply (to_holds F _ al _ HK HFW) in H. split.
  - intros Hne Hc Hcur. assert (Hg : gives K w M i (SrcMove j) (cvals K d) (<[j := cnil K]> M)) by (constructor; [congruence|exact Hj]).
    destruct (insert_over_throw F im al K (kind_is_ok F al HK) HFW w M i c (SrcMove j) _ _ pos H Hi Hc Hg Hf Hcur) as (w' & E & Ex & H' & HE & _).
    specialize (HE (ex_intro _ j eq_refl)). subst E. pose proof H' as Hw'. apply (to_holds F _ al _ HK HFW) in Hw'.
    pose proof (heap_unique HK _ _ _ Hw Hw') as Hh. exists w'. split; [exact Ex|]. split; [exact Hw'|]. split; [congruence|].
    pose proof (holds_size _ _ _ _ _ _ _ _ H' Hj) as Lc. unfold fits in Hf. rewrite Hh in Hf.
    destruct (destroy_ok F im al K (kind_is_ok F al HK) w' M j d H' Hj ltac:(lia)) as (w'' & Ed & H'' & _).
    exists w''. split; [exact Ed|]. apply (to_holds F _ al _ HK HFW), H''.
  - intros <-. split; [|intros first emplace]; unfold insert_over, insert_child; rewrite decide_True by reflexivity; reflexivity.
Qed.
Print Assumptions C34_insert_over_partial.

(** insert_child_back(position, std::move(tree)) on a full binary node throws, and
    the destructor of the argument then uses a released node. *)
Theorem C34_insert_child_refuted :
  exists (w : world (bnode nat)) (M : gmap tid (bin (addr * nat))) (pos : iter) (w1 : world (bnode nat)),
  consistent (binary_kind nat) w M /\ iterator_at 100 (binary_impl nat) (w_heap w) PreOrder (Some 1%positive) (Some 1%positive) = Ok pos /\
  insert_child 100 (binary_impl nat) (first_fit _) false false w 1%positive pos (SrcMove 2%positive) = Throw w1 /\
  destroy 100 (binary_impl nat) w1 2%positive = Err Dangling.
Proof.
  exists ex_bw, ex_bM, (Iter PreOrder (Some 1%positive) (Some 1%positive) [] (Some 1%positive)). eexists. split; [exact ex_bw_ok|]. split; [reflexivity|].
  split; vm_compute; reflexivity.
Qed.
Print Assumptions C34_insert_child_refuted.
(** The same for n-ary trees, at end(). *)
Theorem C34_insert_child_nary_refuted :
  exists (w : world (nnode nat)) (M : gmap tid (option (rose (addr * nat)))) (pos : iter) (w1 : world (nnode nat)),
  consistent (nary_kind nat) w M /\ tree_end 100 (tree_nav (nary_impl nat) (w_heap w)) PreOrder (Some 1%positive) = Ok pos /\
  insert_child 100 (nary_impl nat) (first_fit _) true false w 1%positive pos (SrcMove 2%positive) = Throw w1 /\
  destroy 100 (nary_impl nat) w1 2%positive = Err Dangling.
Proof.
  exists ex_nw, ex_nM, (Iter PreOrder None (Some 1%positive) [] None). eexists. split; [exact ex_nw_ok|]. split; [reflexivity|].
  split; vm_compute; reflexivity.
Qed.
Print Assumptions C34_insert_child_nary_refuted.
Example C34_used : exists w' w'', insert_over 100 (binary_impl nat) (first_fit _) ex_bw 1%positive (Iter PreOrder None (Some 1%positive) [] None) (SrcMove 2%positive) = Throw w' /\
  destroy 100 (binary_impl nat) w' 2%positive = Ok w''.
Proof.
  destruct (proj1 (C34_insert_over_partial nat _ _ _ _ 100 (first_fit _) (binary_tree_kind nat _) ex_word ex_bw ex_bM 1%positive 2%positive ex_bin (BNode (7%positive, 70) BLeaf BLeaf)
    (Iter PreOrder None (Some 1%positive) [] None) ex_bw_ok eq_refl eq_refl ltac:(vm_compute; lia)) ltac:(discriminate) ltac:(discriminate) eq_refl) as (w' & E & _ & _ & w'' & Ed & _). eauto.
Qed.

(** *** C41: iterating on from the iterator insert_over returns.  For a node that
    is not the root this is C27_insert_over with C08, C10.  At the root it fails:
    with a tree of one node, [++] stays at this node for ever; into an empty tree,
    the returned iterator denotes no element. *)
Theorem C41_returned_iterator_refuted :
  (exists (w w1 : world (bnode nat)) (M : gmap tid (bin (addr * nat))) (pos it : iter),
   consistent (binary_kind nat) w M /\ iterator_at 100 (binary_impl nat) (w_heap w) PreOrder (Some 7%positive) (Some 7%positive) = Ok pos /\
   insert_over 100 (binary_impl nat) (first_fit _) w 2%positive pos (SrcValue 99) = Ret it w1 /\
   it_cur it <> None /\ (forall n, run 100 (binary_impl nat) (w_heap w1) (repeat true n) it = Ok it)) /\
  (exists (w w1 : world (bnode nat)) (pos it : iter),
   consistent (binary_kind nat) w (<[1%positive := BLeaf]> ∅) /\ tree_end 100 (tree_nav (binary_impl nat) (w_heap w)) PreOrder None = Ok pos /\
   insert_over 100 (binary_impl nat) (first_fit _) w 1%positive pos (SrcValue 99) = Ret it w1 /\
   iterate 100 (binary_impl nat) (w_heap w1) PreOrder (Some 1%positive) = Ok [(1%positive, 99)] /\ it_cur it = None).
Proof.
  split.
  - exists ex_bw, (match insert_over 100 (binary_impl nat) (first_fit _) ex_bw 2%positive (Iter PreOrder (Some 7%positive) (Some 7%positive) [] (Some 7%positive)) (SrcValue 99) with Ret _ w => w | _ => ex_bw end),
      ex_bM, (Iter PreOrder (Some 7%positive) (Some 7%positive) [] (Some 7%positive)), (Iter PreOrder (Some 8%positive) (Some 7%positive) [] (Some 7%positive)).
    split; [exact ex_bw_ok|]. split; [reflexivity|]. split; [vm_compute; reflexivity|]. split; [discriminate|].
    intros n. induction n as [|n IH]; [reflexivity|]. cbn [repeat run].
    match goal with |- (_ ← ?m; _) = _ => assert (E : m = Ok (Iter PreOrder (Some 8%positive) (Some 7%positive) [] (Some 7%positive))) by (vm_compute; reflexivity) end.
    rewrite E. exact IH.
  - exists (World ∅ (<[1%positive := TreeRec None 0 0 None]> ∅)). do 3 eexists. split; [|split; [reflexivity|split; [vm_compute; reflexivity|split; vm_compute; reflexivity]]].
    split.
    + intros i. cbn [w_trees]. rewrite !lookup_insert_is_Some, !lookup_empty. split; intros [H|[_ []]]; try discriminate; auto.
    + intros i t c Ht Hc. cbn [w_trees] in Ht. apply lookup_insert_Some in Ht as [[<- <-]|[_ Ht]]; [|discriminate]. rewrite lookup_insert in Hc. injection Hc as <-.
      split; [reflexivity|]. split; [reflexivity|]. split; [exact I|constructor].
    + intros i j c d a Hc Hd Ha. apply lookup_insert_Some in Hc as [[<- <-]|[_ Hc]]; [apply elem_of_nil in Ha as []|discriminate].
    + intros a. cbn [w_heap]. rewrite lookup_empty. split; [intros []; discriminate|]. intros (i & c & Hc & Ha).
      apply lookup_insert_Some in Hc as [[<- <-]|[_ Hc]]; [apply elem_of_nil in Ha as []|discriminate].
Qed.
Print Assumptions C41_returned_iterator_refuted.

(** At a node that is not the root, the returned iterator does continue the
    iteration of the tree from the root of what was inserted.  Missing for the
    full statement: the root position (refuted above), the policies leaves and
    siblings. *)
Theorem C41_returned_iterator_binary_partial :
  forall (V : Type) (EV : EqDecision V) (F : nat) (al : allocator (bnode V)), (N.of_nat F <= W64)%N ->
  forall (w : world (bnode V)) (M M1 : gmap tid (bin (addr * V))) (i : tid) (c : bin (addr * V)) (src : source V) (x : bin V) (a : addr) (k : kind) (pos it0 : iter),
  consistent (binary_kind V) w M -> M !! i = Some c -> gives (binary_kind V) w M i src x M1 -> fits F w src ->
  a ∈ baddrs c -> baddr c <> Some a -> x <> BLeaf -> two_way_bin k ->
  iterator_at F (binary_impl V) (w_heap w) k (Some a) (baddr c) = Ok it0 -> same_iter pos it0 ->
  exists u it w' l1 y l2, insert_over F (binary_impl V) al w i pos src = Ret it w' /\ bin_map snd u = x /\
    consistent (binary_kind V) w' (<[i := bsubst a u c]> M1) /\ baddr u = Some (fst y) /\
    bin_order k (bsubst a u c) = l1 ++ y :: l2 /\
    iterate_from F (binary_impl V) (w_heap w') it k (baddr c) = Ok (y :: l2).
Proof.
  intros V EV F al HFW w M M1 i c src x a k pos it0 Hw Hi Hg Hf Ha Hra Hx Hk E0 Hs.
  pose proof (binary_tree_kind V EV) as HK. pose proof (kind_is_ok F al HK) as KO. pose proof Hw as H. apply (to_holds F _ al _ HK HFW) in H.
  destruct (holds_get _ _ _ _ _ _ _ _ H Hi) as (t & Ht & _).
  assert (Hst : stands F (binary_impl V) (w_heap w) (baddr c) a pos).
  { eapply same_iter_stands; [exact E0|exact Hs|]. destruct c as [|[? ?] ? ?]; [apply elem_of_nil in Ha as []|discriminate]. }
  destruct (insert_over_ok F _ al _ KO HFW w M i c t src x M1 a pos H Hi Ht Hg Hf Ha Hst) as (u & it & w' & E & Hu & Hp & H' & Hki & Hr & Hc & Hs' & Hlen & _).
  { intros _ u _. exact I. }
  destruct (baddr c) as [r|] eqn:Ec; [|destruct c as [|[? ?] ? ?]; [apply elem_of_nil in Ha as []|discriminate]].
  destruct (instance_fields _ _ _ _ _ _ E0) as (F1 & F2 & F3). destruct Hs as (G1 & G2 & G3 & G4).
  assert (Hkp : it_kind pos = k) by congruence.
  destruct u as [|[b v] ul ur]; [cbn in Hu; congruence|]. set (u := BNode (b, v) ul ur) in *.
  assert (Hopen : k <> BreadthFirst -> it_open it = []).
  { intros Hb. rewrite (insert_over_open _ _ _ _ _ _ _ _ _ E) by congruence. rewrite G4. unfold iterator_at, get_instance, fix_navigator_root in E0. cbn in E0.
    destruct k; try congruence; cbn in E0; injection E0 as <-; reflexivity. }
  change (baddr c <> Some a -> forall b', Some b = Some b' -> stands F (binary_impl V) (w_heap w') (baddr c) b' it) in Hs'.
  rewrite Ec in Hs'. pose proof (Hs' Hra b eq_refl) as Hsb. 
  assert (Hrep : crep (binary_kind V) (w_heap w') (bsubst a u c)) by (eapply holds_rep; [exact H'|apply lookup_insert]).
  apply (to_holds F _ al _ HK HFW) in H'.
  assert (Eroot : baddr (bsubst a u c) = Some r).
  { destruct c as [|[r' v'] cl cr]; [discriminate|]. cbn in Ec. injection Ec as ->. cbn [bsubst]. rewrite decide_False by congruence. reflexivity. }
  assert (Hb : b ∈ map fst (bin_order k (bsubst a u c))).
  { rewrite bin_order_perm by exact Hk. apply bsubst_in; [exact Ha|]. left. }
  apply elem_of_list_fmap in Hb as ([b' y] & Eb & Hb). cbn in Eb. subst b'. apply elem_of_list_split in Hb as (l1 & l2 & El).
  destruct (p_change_policy_binary V EV F (w_heap w') (bsubst a u c) k it l1 l2 (b, y)) as (it2 & E2 & K2 & C2 & W2).
  { eexists. exact Hrep. }
  { change (length (baddrs (bsubst a u c)) < F) in Hlen. rewrite length_baddrs in Hlen. exact Hlen. }
  { exact Hk. } { exact El. } { exact (proj1 Hsb). } { rewrite Eroot. exact (proj1 (proj2 Hsb)). }
  exists u, it, w', l1, (b, y), l2. split; [exact E|]. split; [exact Hu|]. split; [exact H'|]. split; [reflexivity|]. split; [exact El|].
  rewrite <- W2. rewrite Eroot. unfold iterate_from. destruct (tree_end _ _ _ _) as [e|]; [|reflexivity]. cbn [mbind res_bind]. apply same_walk.
  - eapply stands_instance; [exact Hsb|rewrite Hki; exact Hkp|exact Hopen|]. unfold it_other_policy in E2. rewrite (proj1 Hsb), (proj1 (proj2 Hsb)) in E2. exact E2.
  - rewrite Hki, Hkp. intros ->. destruct Hk as [?|[?|[?|?]]]; discriminate.
Qed.
Print Assumptions C41_returned_iterator_binary_partial.

Theorem C41_returned_iterator_nary_partial :
  forall (V : Type) (EV : EqDecision V) (F : nat) (al : allocator (nnode V)), (N.of_nat F <= W64)%N ->
  forall (w : world (nnode V)) (M M1 : gmap tid (option (rose (addr * V)))) (i : tid) (c : option (rose (addr * V))) (src : source V) (x : option (rose V)) (a : addr) (k : kind) (pos it0 : iter),
  consistent (nary_kind V) w M -> M !! i = Some c -> gives (nary_kind V) w M i src x M1 -> fits F w src ->
  a ∈ naddrs c -> nroot c <> Some a -> x <> None -> two_way_nary k ->
  iterator_at F (nary_impl V) (w_heap w) k (Some a) (nroot c) = Ok it0 -> same_iter pos it0 ->
  exists u it w' l1 y l2, insert_over F (nary_impl V) al w i pos src = Ret it w' /\ nvals u = x /\
    consistent (nary_kind V) w' (<[i := nsubst a u c]> M1) /\ nroot u = Some (fst y) /\
    nary_order k (nsubst a u c) = l1 ++ y :: l2 /\
    iterate_from F (nary_impl V) (w_heap w') it k (nroot c) = Ok (y :: l2).
Proof.
  intros V EV F al HFW w M M1 i c src x a k pos it0 Hw Hi Hg Hf Ha Hra Hx Hk E0 Hs.
  pose proof (nary_tree_kind V EV) as HK. pose proof (kind_is_ok F al HK) as KO. pose proof Hw as H. apply (to_holds F _ al _ HK HFW) in H.
  destruct (holds_get _ _ _ _ _ _ _ _ H Hi) as (t & Ht & _).
  assert (Hst : stands F (nary_impl V) (w_heap w) (nroot c) a pos).
  { eapply same_iter_stands; [exact E0|exact Hs|]. destruct c; [discriminate|apply elem_of_nil in Ha as []]. }
  destruct (insert_over_ok F _ al _ KO HFW w M i c t src x M1 a pos H Hi Ht Hg Hf Ha Hst) as (u & it & w' & E & Hu & Hp & H' & Hki & Hr & Hc & Hs' & Hlen & _).
  { intros _ [u|] Hu; [exact I|]. cbn in Hu. congruence. }
  destruct (nroot c) as [r|] eqn:Ec; [|destruct c; [discriminate|apply elem_of_nil in Ha as []]].
  destruct (instance_fields _ _ _ _ _ _ E0) as (F1 & F2 & F3). destruct Hs as (G1 & G2 & G3 & G4).
  assert (Hkp : it_kind pos = k) by congruence.
  destruct u as [[[b v] us]|]; [|cbn in Hu; congruence]. set (u := Some (Rose (b, v) us)) in *.
  assert (Hopen : k <> BreadthFirst -> it_open it = []).
  { intros Hb. rewrite (insert_over_open _ _ _ _ _ _ _ _ _ E) by congruence. rewrite G4. unfold iterator_at, get_instance, fix_navigator_root in E0. cbn in E0.
    destruct k; try congruence; cbn in E0; injection E0 as <-; reflexivity. }
  change (nroot c <> Some a -> forall b', Some b = Some b' -> stands F (nary_impl V) (w_heap w') (nroot c) b' it) in Hs'.
  rewrite Ec in Hs'. pose proof (Hs' Hra b eq_refl) as Hsb. 
  assert (Hrep : crep (nary_kind V) (w_heap w') (nsubst a u c)) by (eapply holds_rep; [exact H'|apply lookup_insert]).
  apply (to_holds F _ al _ HK HFW) in H'.
  assert (Eroot : nroot (nsubst a u c) = Some r).
  { destruct c as [[[r' v'] cs]|]; [|discriminate]. cbn in Ec. injection Ec as ->. cbn [nsubst mbind option_bind rsubst]. rewrite decide_False by congruence. reflexivity. }
  assert (Hb : b ∈ map fst (nary_order k (nsubst a u c))).
  { rewrite nary_order_perm by exact Hk. destruct c as [c|]; [|discriminate]. apply rsubst_in; [exact Ha|]. left. }
  apply elem_of_list_fmap in Hb as ([b' y] & Eb & Hb). cbn in Eb. subst b'. apply elem_of_list_split in Hb as (l1 & l2 & El).
  destruct (p_change_policy_nary V EV F (w_heap w') (nsubst a u c) k it l1 l2 (b, y)) as (it2 & E2 & K2 & C2 & W2).
  { destruct (nsubst a u c); [|exact I]. exists None, None, None, (szt 0). exact Hrep. }
  { change (length (naddrs (nsubst a u c)) < F) in Hlen. destruct (nsubst a u c); cbn [naddrs opt_list nsize] in *; [rewrite length_raddrs in Hlen; exact Hlen|exact Hlen]. }
  { exact Hk. } { exact El. } { exact (proj1 Hsb). } { rewrite Eroot. exact (proj1 (proj2 Hsb)). }
  exists u, it, w', l1, (b, y), l2. split; [exact E|]. split; [exact Hu|]. split; [exact H'|]. split; [reflexivity|]. split; [exact El|].
  rewrite <- W2. rewrite Eroot. unfold iterate_from. destruct (tree_end _ _ _ _) as [e|]; [|reflexivity]. cbn [mbind res_bind]. apply same_walk.
  - eapply stands_instance; [exact Hsb|rewrite Hki; exact Hkp|exact Hopen|]. unfold it_other_policy in E2. rewrite (proj1 Hsb), (proj1 (proj2 Hsb)) in E2. exact E2.
  - rewrite Hki, Hkp. intros ->. destruct Hk as [?|[?|?]]; discriminate.
Qed.
Print Assumptions C41_returned_iterator_nary_partial.
(** Replacing the first leaf (node 4) of the n-ary example by the literal 5(6), in
    pre-order. *)
Example C41_used : exists u it w' l1 y l2,
  insert_over 100 (nary_impl nat) (first_fit _) ex_nw 1%positive (Iter PreOrder (Some 4%positive) (Some 1%positive) [] (Some 4%positive)) (SrcStruct (eval_lit (LNode 5 [LNode 6 []]))) = Ret it w' /\
  nary_order PreOrder (nsubst 4%positive u (Some ex_nary)) = l1 ++ y :: l2 /\
  iterate_from 100 (nary_impl nat) (w_heap w') it PreOrder (Some 1%positive) = Ok (y :: l2).
Proof.
  destruct (C41_returned_iterator_nary_partial nat _ 100 (first_fit _) ex_word ex_nw ex_nM ex_nM 1%positive (Some ex_nary)
    (SrcStruct (eval_lit (LNode 5 [LNode 6 []]))) (Some (Rose 5 [Rose 6 []])) 4%positive PreOrder
    (Iter PreOrder (Some 4%positive) (Some 1%positive) [] (Some 4%positive)) (Iter PreOrder (Some 4%positive) (Some 1%positive) [] (Some 4%positive)) ex_nw_ok eq_refl)
    as (u & it & w' & l1 & y & l2 & E & _ & _ & _ & El & Ew).
  - apply (GStruct (nary_kind nat) ex_nw ex_nM 1%positive 5 [LNode 6 []]). vm_compute. tauto.
  - vm_compute. lia.
  - vm_compute. set_solver +.
  - discriminate.
  - discriminate.
  - left. reflexivity.
  - reflexivity.
  - repeat split.
  - exists u, it, w', l1, y, l2. auto.
Qed.
