(** PropLeafStay.v: leaves iterators and modifications (C62, C63), and what is left
    of C41: the policies siblings and leaves. *)
From Verif Require Import Base Spec EditSpec StructNode BinaryNode NaryNode Nav Policy Tree Rep User World Kinds TreeSpec
  BinRep NaryRep NaryEdit Iter IterTrees IterMain IterProofs TreeOps TreeNary TreeFacts EditFacts RoseFacts NavFacts NodeFacts PropEdit PropStay StarMain History
  TreeOps2 TreeOps3 TreeBin LeafSpec LeafStay Examples Examples2.

(** *** C62: an iterator that walked over the leaves of [t] up to the leaf [x]; later
    (heap [h'], tree [t']) the node is still a leaf, and the nodes on the way to it
    that have a next sibling are the same ([trail]).  Then the loop from the iterator
    visits the leaves of [t'] from that leaf on. *)
Theorem C62_stay_nary :
  forall (V : Type) (EV : EqDecision V) (F : nat) (h h' : gmap addr (nnode V)) (t t' : rose (addr * V)) (m : nat) (x y : addr * V) (b it : iter) (l1 l2 : list (addr * V)),
  nary_in h t -> rsize t < F -> nary_in h' t' -> rsize t' < F -> raddr t' = raddr t ->
  nth_error (leaves t) m = Some x -> tree_begin F (tree_nav (nary_impl V) h) Leaves (Some (raddr t)) = Ok b -> run F (nary_impl V) h (repeat true m) b = Ok it ->
  leaves t' = l1 ++ y :: l2 -> fst y = fst x -> trail (fst x) (rose_map fst t') = trail (fst x) (rose_map fst t) ->
  iterate_from F (nary_impl V) h' it Leaves (Some (raddr t')) = Ok (y :: l2).
Proof.
  intros V EV F h h' t t' m x y b it l1 l2 Ht HF Ht' HF' Hroot Hx Eb Er El Hy Htr. rewrite Hroot.
  pose proof (nary_seen F h' t' Ht' HF') as Hs'. rewrite Hroot in Hs'.
  exact (stay F _ h h' _ t t' m x y b it l1 l2 (nary_seen F h t Ht HF) Hs' Hx Eb Er El Hy Htr).
Qed.
Print Assumptions C62_stay_nary.
Theorem C62_stay_binary :
  forall (V : Type) (EV : EqDecision V) (F : nat) (h h' : gmap addr (bnode V)) (c c' : bin (addr * V)) (t t' : rose (addr * V)) (m : nat) (x y : addr * V) (b it : iter) (l1 l2 : list (addr * V)),
  bin_in h c -> bin_size c < F -> bin_forest c = [t] -> bin_in h' c' -> bin_size c' < F -> bin_forest c' = [t'] -> raddr t' = raddr t ->
  nth_error (leaves t) m = Some x -> tree_begin F (tree_nav (binary_impl V) h) Leaves (baddr c) = Ok b -> run F (binary_impl V) h (repeat true m) b = Ok it ->
  leaves t' = l1 ++ y :: l2 -> fst y = fst x -> trail (fst x) (rose_map fst t') = trail (fst x) (rose_map fst t) ->
  iterate_from F (binary_impl V) h' it Leaves (baddr c') = Ok (y :: l2).
Proof.
  intros V EV F h h' c c' t t' m x y b it l1 l2 Hc HF Ht Hc' HF' Ht' Hroot Hx Eb Er El Hy Htr.
  rewrite (bin_root c t Ht) in Eb. rewrite (bin_root c' t' Ht'), Hroot.
  pose proof (bin_seen F h' c' t' Hc' HF' Ht') as Hs'. rewrite Hroot in Hs'.
  exact (stay F _ h h' _ t t' m x y b it l1 l2 (bin_seen F h c t Hc HF Ht) Hs' Hx Eb Er El Hy Htr).
Qed.
Print Assumptions C62_stay_binary.

(** If the nearest node of the way that had a next sibling has none any more, [++]
    dereferences null: in every tree, at every leaf, whatever else happened. *)
Theorem C62_sibling_gone_nary_refuted :
  forall (V : Type) (EV : EqDecision V) (F : nat) (h h' : gmap addr (nnode V)) (t t' s : rose (addr * V)) (m : nat) (x z : addr * V) (q : addr) (p : list addr) (ls : list (rose (addr * V))) (b it : iter),
  nary_in h t -> rsize t < F -> nary_in h' t' -> rsize t' < F -> raddr t' = raddr t ->
  nth_error (leaves t) m = Some x -> tree_begin F (tree_nav (nary_impl V) h) Leaves (Some (raddr t)) = Ok b -> run F (nary_impl V) h (repeat true m) b = Ok it ->
  trail (fst x) (rose_map fst t) = Some (q :: p) -> rsubtree (Rose z (ls ++ [s])) t' -> raddr s = q ->
  incr F (nary_impl V) h' it = Err NullDeref.
Proof.
  intros V EV F h h' t t' s m x z q p ls b it Ht HF Ht' HF' Hroot Hx Eb Er Htr Hsub Hq.
  pose proof (nary_seen F h' t' Ht' HF') as Hs'. rewrite Hroot in Hs'.
  refine (sibling_gone F _ h h' _ t t' s m x z q p ls b it (nary_seen F h t Ht HF) Hs' _ Hx Eb Er Htr Hsub Hq). reflexivity.
Qed.
Print Assumptions C62_sibling_gone_nary_refuted.
Theorem C62_sibling_gone_binary_refuted :
  forall (V : Type) (EV : EqDecision V) (F : nat) (h h' : gmap addr (bnode V)) (c c' : bin (addr * V)) (t t' s : rose (addr * V)) (m : nat) (x z : addr * V) (q : addr) (p : list addr) (ls : list (rose (addr * V))) (b it : iter),
  bin_in h c -> bin_size c < F -> bin_forest c = [t] -> bin_in h' c' -> bin_size c' < F -> bin_forest c' = [t'] -> raddr t' = raddr t ->
  nth_error (leaves t) m = Some x -> tree_begin F (tree_nav (binary_impl V) h) Leaves (baddr c) = Ok b -> run F (binary_impl V) h (repeat true m) b = Ok it ->
  trail (fst x) (rose_map fst t) = Some (q :: p) -> rsubtree (Rose z (ls ++ [s])) t' -> raddr s = q ->
  incr F (binary_impl V) h' it = Err NullDeref.
Proof.
  intros V EV F h h' c c' t t' s m x z q p ls b it Hc HF Ht Hc' HF' Ht' Hroot Hx Eb Er Htr Hsub Hq.
  rewrite (bin_root c t Ht) in Eb.
  pose proof (bin_seen F h' c' t' Hc' HF' Ht') as Hs'. rewrite Hroot in Hs'.
  refine (sibling_gone F _ h h' _ t t' s m x z q p ls b it (bin_seen F h c t Hc HF Ht) Hs' _ Hx Eb Er Htr Hsub Hq). reflexivity.
Qed.
Print Assumptions C62_sibling_gone_binary_refuted.

(** The leaves iterator at node 2, made before node 3 was erased: 40 follows. *)
Example C62_used : exists it w',
  erase 100 (nary_impl nat) ex_nw 1%positive (Iter PostOrder (Some 3%positive) (Some 1%positive) [] None) = Ret it w' /\
  iterate_from 100 (nary_impl nat) (w_heap w') (Iter Leaves (Some 2%positive) (Some 1%positive) [Some 2%positive] None) Leaves (Some 1%positive) = Ok [(2%positive, 20); (4%positive, 40)].
Proof.
  destruct C30_used as (it & w' & E & H & _). exists it, w'. split; [exact E|].
  apply (C62_stay_nary nat _ 100 ex_nheap (w_heap w') ex_nary ex_left 0 (2%positive, 20) (2%positive, 20)
    (Iter Leaves (Some 2%positive) (Some 1%positive) [Some 2%positive] None) (Iter Leaves (Some 2%positive) (Some 1%positive) [Some 2%positive] None) [] [(4%positive, 40)]).
  - exact ex_nary_in.
  - vm_compute. lia.
  - apply (to_holds 100 _ (first_fit _) _ (nary_tree_kind nat _) ex_word) in H. exists None, None, None, (szt 0).
    exact (holds_rep _ _ _ _ _ _ _ _ H (lookup_insert _ 1%positive (Some ex_left))).
  - vm_compute. lia.
  - reflexivity.
  - reflexivity.
  - vm_compute. reflexivity.
  - reflexivity.
  - reflexivity.
  - reflexivity.
  - vm_compute. reflexivity.
Qed.
(** The leaves iterator at node 5 of 10(20(-, 40(50, -)), 30), made before node 3, the
    sibling of its ancestor 2, was erased. *)
Example C62_gone_used : exists it w',
  erase 100 (binary_impl nat) ex_bw 1%positive (Iter PostOrder (Some 3%positive) (Some 1%positive) [] None) = Ret it w' /\
  incr 100 (binary_impl nat) (w_heap w') (Iter Leaves (Some 5%positive) (Some 1%positive) [Some 2%positive] None) = Err NullDeref.
Proof.
  destruct (C29_erase nat _ 100 ex_word ex_bw ex_bM 1%positive ex_bin 3%positive (Iter PostOrder (Some 3%positive) (Some 1%positive) [] None) ex_bw_ok)
    as (it & w' & E & H & _); [vm_compute; lia|reflexivity|vm_compute; set_solver +|reflexivity..|].
  exists it, w'. split; [exact E|].
  destruct (bin_forest ex_bin) as [|t [|]] eqn:Et; [discriminate| |discriminate].
  destruct (bin_forest (bprune [3%positive] ex_bin)) as [|t' [|]] eqn:Et'; [discriminate| |discriminate].
  apply (C62_sibling_gone_binary_refuted nat _ 100 ex_bheap (w_heap w') ex_bin (bprune [3%positive] ex_bin) t t'
    (Rose (2%positive, 20) [Rose (4%positive, 40) [Rose (5%positive, 50) []]]) 0 (5%positive, 50) (1%positive, 10) 2%positive [] []
    (Iter Leaves (Some 5%positive) (Some 1%positive) [Some 2%positive] None)); vm_compute in Et, Et'; injection Et as <-; injection Et' as <-.
  - exact ex_bin_in.
  - vm_compute. lia.
  - reflexivity.
  - apply (to_holds 100 _ (first_fit _) _ (binary_tree_kind nat _) ex_word) in H. exists None.
    exact (holds_rep _ _ _ _ _ _ _ _ H (lookup_insert _ 1%positive _)).
  - vm_compute. lia.
  - reflexivity.
  - reflexivity.
  - reflexivity.
  - vm_compute. reflexivity.
  - reflexivity.
  - vm_compute. reflexivity.
  - apply rsub_here.
  - reflexivity.
Qed.

(** *** C63: a leaves iterator made at a node (by [other_policy], [go_child] and so
    on) does not continue: the loop from it visits that node, be it a leaf or not,
    and ends, in every tree at every node. *)
Theorem C63_made_at_nary_refuted :
  forall (V : Type) (EV : EqDecision V) (F : nat) (h : gmap addr (nnode V)) (t : rose (addr * V)) (x : addr * V) (it : iter),
  nary_in h t -> rsize t < F -> x ∈ preorder t ->
  iterator_at F (nary_impl V) h Leaves (Some (fst x)) (Some (raddr t)) = Ok it ->
  iterate_from F (nary_impl V) h it Leaves (Some (raddr t)) = Ok [x].
Proof. intros V EV F h t x it Ht HF Hx. exact (made_at F _ h _ t x it (nary_seen F h t Ht HF) Hx). Qed.
Print Assumptions C63_made_at_nary_refuted.
Theorem C63_made_at_binary_refuted :
  forall (V : Type) (EV : EqDecision V) (F : nat) (h : gmap addr (bnode V)) (c : bin (addr * V)) (x : addr * V) (it : iter),
  bin_in h c -> bin_size c < F -> x ∈ bin_labels c ->
  iterator_at F (binary_impl V) h Leaves (Some (fst x)) (baddr c) = Ok it ->
  iterate_from F (binary_impl V) h it Leaves (baddr c) = Ok [x].
Proof.
  intros V EV F h c x it Hc HF Hx. destruct (bin_roots h c Hc) as (a & t & Ha & Hu & _ & _ & _ & _ & Hlab); [intros ->; apply elem_of_nil in Hx as []|].
  rewrite (bin_root c t Hu). apply (made_at F _ h _ t x it (bin_seen F h c t Hc HF Hu)). rewrite <- Hlab. exact Hx.
Qed.
Print Assumptions C63_made_at_binary_refuted.
(** The last leaf is the only node where this is what C63 asks for. *)
Theorem C63_last_leaf_partial :
  forall (V : Type) (EV : EqDecision V) (F : nat),
  (forall (h : gmap addr (nnode V)) (t : rose (addr * V)) (x : addr * V) (it : iter) (l1 l2 : list (addr * V)),
     nary_in h t -> rsize t < F -> leaves t = l1 ++ x :: l2 ->
     iterator_at F (nary_impl V) h Leaves (Some (fst x)) (Some (raddr t)) = Ok it ->
     iterate_from F (nary_impl V) h it Leaves (Some (raddr t)) = Ok (x :: l2) <-> l2 = []) /\
  (forall (h : gmap addr (bnode V)) (c : bin (addr * V)) (x : addr * V) (it : iter) (l1 l2 : list (addr * V)),
     bin_in h c -> bin_size c < F -> bin_order Leaves c = l1 ++ x :: l2 ->
     iterator_at F (binary_impl V) h Leaves (Some (fst x)) (baddr c) = Ok it ->
     iterate_from F (binary_impl V) h it Leaves (baddr c) = Ok (x :: l2) <-> l2 = []).
Proof.
  intros V EV F. split.
  - intros h t x it l1 l2 Ht HF El E. rewrite (C63_made_at_nary_refuted V EV F h t x it Ht HF); [|apply leaves_in; rewrite El; apply elem_of_app; right; left|exact E].
    split; [congruence|intros ->; reflexivity].
  - intros h c x it l1 l2 Hc HF El E. rewrite (C63_made_at_binary_refuted V EV F h c x it Hc HF); [| |exact E].
    + split; [congruence|intros ->; reflexivity].
    + eapply bin_order_in. rewrite El. apply elem_of_app. right. left.
Qed.
Print Assumptions C63_last_leaf_partial.

(** The loop over the leaves from node 3 of the example, which has the leaves 5 and
    6 below it and the leaf 4 after it. *)
Example C63_used : exists it, iterator_at 100 (nary_impl nat) ex_nheap Leaves (Some 3%positive) (Some 1%positive) = Ok it /\
  iterate_from 100 (nary_impl nat) ex_nheap it Leaves (Some 1%positive) = Ok [(3%positive, 30)].
Proof.
  eexists. split; [reflexivity|]. apply (C63_made_at_nary_refuted nat _ 100 ex_nheap ex_nary (3%positive, 30)).
  - exact ex_nary_in.
  - vm_compute. lia.
  - vm_compute. set_solver +.
  - reflexivity.
Qed.

(** *** C41 for the policy siblings: below the root, the returned iterator goes on
    through the siblings that followed the replaced node [a], the child number [n] of
    the node of [s]. *)
Theorem C41_siblings_nary_partial :
  forall (V : Type) (EV : EqDecision V) (F : nat) (al : allocator (nnode V)), (N.of_nat F <= W64)%N ->
  forall (w : world (nnode V)) (M M1 : gmap tid (option (rose (addr * V)))) (i : tid) (t s : rose (addr * V)) (n : nat) (src : source V) (x : option (rose V)) (a : addr) (pos it0 : iter),
  consistent (nary_kind V) w M -> M !! i = Some (Some t) -> gives (nary_kind V) w M i src x M1 -> fits F w src -> x <> None ->
  rsubtree s t -> nth_addr (map label (children s)) n = Some a ->
  iterator_at F (nary_impl V) (w_heap w) Siblings (Some a) (Some (raddr t)) = Ok it0 -> same_iter pos it0 ->
  exists u it w', insert_over F (nary_impl V) al w i pos src = Ret it w' /\ Some (rose_map snd u) = x /\
    consistent (nary_kind V) w' (<[i := nsubst a (Some u) (Some t)]> M1) /\
    iterate_from F (nary_impl V) (w_heap w') it Siblings (Some (raddr t)) = Ok (label u :: skipn (S n) (map label (children s))).
Proof.
  intros V EV F al HFW w M M1 i t s n src x a pos it0 Hw Hi Hg Hf Hx Hsub Hn E0 Hs.
  pose proof (nary_tree_kind V EV) as HK. pose proof (kind_is_ok F al HK) as KO. pose proof Hw as H. apply (to_holds F _ al _ HK HFW) in H.
  destruct (holds_get _ _ _ _ _ _ _ _ H Hi) as (tr & Htr & _).
  pose proof (holds_rep _ _ _ _ _ _ _ _ H Hi) as Hrep0. assert (Hnd : NoDup (raddrs t)) by exact (proj2 Hrep0).
  destruct (split_child s n a Hn) as (q & ls & s0 & rs & -> & Hl & Hs0). apply rsubtree_plug in Hsub as (c & Hc).
  assert (Hc0 : plug ((ls, q, rs) :: c) s0 = t) by exact Hc.
  assert (Ha : a ∈ raddrs t) by (rewrite <- Hc0, <- Hs0; exact (in_raddrs ((ls, q, rs) :: c) s0)).
  assert (Hra : Some (raddr t) <> Some a).
  { intros E. injection E as E. subst a. rewrite <- Hc0 in Hnd, E. pose proof (proj1 (label_root _ _ Hnd) (eq_sym E)). discriminate. }
  assert (Hst : stands F (nary_impl V) (w_heap w) (Some (raddr t)) a pos) by (eapply same_iter_stands; [exact E0|exact Hs|discriminate]).
  destruct (insert_over_ok F _ al _ KO HFW w M i (Some t) tr src x M1 a pos H Hi Htr Hg Hf Ha Hst) as (u & it & w' & E & Hu & Hp & H' & Hki & Hr & Hcu & Hs' & Hlen & _).
  { intros _ [u|] Hu; [exact I|]. cbn in Hu. congruence. }
  destruct u as [u|]; [|cbn in Hu; congruence].
  destruct Hs as (G1 & G2 & G3 & G4).
  assert (Et : nsubst a (Some u) (Some t) = Some (plug c (Rose q (ls ++ u :: rs)))).
  { cbn [nsubst mbind option_bind]. rewrite <- Hc0, <- Hs0. apply (subst_at ((ls, q, rs) :: c) s0 u). rewrite Hc0. exact Hnd. }
  assert (Hrep : crep (nary_kind V) (w_heap w') (nsubst a (Some u) (Some t))) by (eapply holds_rep; [exact H'|apply lookup_insert]).
  apply (to_holds F _ al _ HK HFW) in H'.
  exists u, it, w'. split; [exact E|]. split; [exact Hu|]. split; [exact H'|].
  set (t' := plug c (Rose q (ls ++ u :: rs))) in *. change (length (naddrs (nsubst a (Some u) (Some t))) < F) in Hlen. rewrite Et in Hrep, Hlen.
  assert (Hin : nary_in (w_heap w') t') by (exists None, None, None, (szt 0); exact Hrep).
  assert (Hsz : rsize t' < F) by (cbn [naddrs opt_list] in Hlen; rewrite length_raddrs in Hlen; exact Hlen).
  destruct (p_siblings_nary V EV F (w_heap w') t' (Rose q (ls ++ u :: rs)) n Hin Hsz) as (it2 & E2 & W2 & _).
  { apply rsubtree_plug. exists c. reflexivity. } { cbn [children]. rewrite app_length. cbn. lia. }
  assert (Eroot : raddr t' = raddr t).
  { rewrite <- Hc. unfold t'. clear. revert c. intros c. destruct c as [|[[l' q'] r'] c] using rev_ind; [reflexivity|]. rewrite !RoseFacts.plug_app. reflexivity. }
  cbn [children] in E2, W2. rewrite Eroot in E2, W2.
  assert (Hat : nth_addr (map label (ls ++ u :: rs)) n = Some (raddr u)).
  { unfold nth_addr. rewrite map_app, map_app, nth_error_app2; rewrite !map_length; [|lia]. rewrite Hl, Nat.sub_diag. destruct u as [[? ?] ?]; reflexivity. }
  rewrite Hat in E2.
  assert (Esk : skipn n (map label (ls ++ u :: rs)) = label u :: skipn (S n) (map label (ls ++ s0 :: rs))).
  { rewrite !map_app, !skipn_app, !map_length, Hl. rewrite (skipn_all2 (n := n)) by (rewrite map_length; lia). rewrite (skipn_all2 (n := S n)) by (rewrite map_length; lia). rewrite Nat.sub_diag. replace (S n - n) with 1 by lia. reflexivity. }
  rewrite Esk in W2. cbn [children]. rewrite <- W2. unfold iterate_from. destruct (tree_end _ _ _ _) as [e|]; [|reflexivity]. cbn [mbind res_bind].
  injection E0 as <-. cbn [it_kind it_cur it_root it_open] in *. injection E2 as <-.
  apply same_walk; [|rewrite Hki, G1; discriminate]. unfold same_iter. cbn [it_kind it_cur it_root it_open].
  split; [congruence|]. split; [rewrite Hcu; reflexivity|]. split; [congruence|]. rewrite (insert_over_open _ _ _ _ _ _ _ _ _ E) by congruence. exact G4.
Qed.
Print Assumptions C41_siblings_nary_partial.

Theorem C41_siblings_binary_partial :
  forall (V : Type) (EV : EqDecision V) (F : nat) (al : allocator (bnode V)), (N.of_nat F <= W64)%N ->
  forall (w : world (bnode V)) (M M1 : gmap tid (bin (addr * V))) (i : tid) (c : bin (addr * V)) (t s : rose (addr * V)) (n : nat) (src : source V) (x : bin V) (a : addr) (pos it0 : iter),
  consistent (binary_kind V) w M -> M !! i = Some c -> bin_forest c = [t] -> gives (binary_kind V) w M i src x M1 -> fits F w src -> x <> BLeaf ->
  rsubtree s t -> nth_addr (map label (children s)) n = Some a ->
  iterator_at F (binary_impl V) (w_heap w) Siblings (Some a) (Some (raddr t)) = Ok it0 -> same_iter pos it0 ->
  exists u u' it w', insert_over F (binary_impl V) al w i pos src = Ret it w' /\ bin_map snd u = x /\ bin_forest u = [u'] /\
    consistent (binary_kind V) w' (<[i := bsubst a u c]> M1) /\
    iterate_from F (binary_impl V) (w_heap w') it Siblings (Some (raddr t)) = Ok (label u' :: skipn (S n) (map label (children s))).
Proof.
  intros V EV F al HFW w M M1 i c t s n src x a pos it0 Hw Hi Hct Hg Hf Hx Hsub Hn E0 Hs.
  pose proof (binary_tree_kind V EV) as HK. pose proof (kind_is_ok F al HK) as KO. pose proof Hw as H. apply (to_holds F _ al _ HK HFW) in H.
  destruct (holds_get _ _ _ _ _ _ _ _ H Hi) as (tr & Htr & _).
  pose proof (holds_rep _ _ _ _ _ _ _ _ H Hi) as Hrep0. assert (Hnd0 : NoDup (baddrs c)) by exact (proj2 Hrep0).
  assert (Hrd : raddrs t = baddrs c) by (unfold raddrs, baddrs; rewrite <- forest_labels, Hct; cbn; rewrite app_nil_r; reflexivity).
  assert (Hnd : NoDup (raddrs t)) by (rewrite Hrd; exact Hnd0). pose proof (bin_root c t Hct) as Hroot.
  destruct (split_child s n a Hn) as (q & ls & s0 & rs & -> & Hl & Hs0). apply rsubtree_plug in Hsub as (cx & Hc).
  assert (Hc0 : plug ((ls, q, rs) :: cx) s0 = t) by exact Hc.
  assert (Ha : a ∈ raddrs t) by (rewrite <- Hc0, <- Hs0; exact (in_raddrs ((ls, q, rs) :: cx) s0)).
  assert (Hst : stands F (binary_impl V) (w_heap w) (Some (raddr t)) a pos) by (eapply same_iter_stands; [exact E0|exact Hs|discriminate]).
  rewrite <- Hroot in Hst. rewrite Hrd in Ha.
  destruct (insert_over_ok F _ al _ KO HFW w M i c tr src x M1 a pos H Hi Htr Hg Hf Ha Hst) as (u & it & w' & E & Hu & Hp & H' & Hki & Hr & Hcu & Hs' & Hlen & _).
  { intros _ u _. exact I. }
  destruct u as [|[b v] ul ur]; [cbn in Hu; congruence|]. set (u := BNode (b, v) ul ur) in *. set (u' := Rose (b, v) (bin_forest ul ++ bin_forest ur)).
  assert (Huu : bin_forest u = [u']) by reflexivity.
  destruct Hs as (G1 & G2 & G3 & G4).
  set (t' := plug cx (Rose q (ls ++ u' :: rs))) in *.
  assert (Et : bin_forest (bsubst a u c) = [t']).
  { rewrite (forest_subst a u u' c Huu), Hct. cbn [flat_map]. rewrite <- Hc0, <- Hs0. rewrite (subst_at ((ls, q, rs) :: cx) s0 u') by (rewrite Hc0; exact Hnd). reflexivity. }
  assert (Hrep : crep (binary_kind V) (w_heap w') (bsubst a u c)) by (eapply holds_rep; [exact H'|apply lookup_insert]).
  apply (to_holds F _ al _ HK HFW) in H'.
  exists u, u', it, w'. split; [exact E|]. split; [exact Hu|]. split; [exact Huu|]. split; [exact H'|].
  change (length (baddrs (bsubst a u c)) < F) in Hlen. rewrite length_baddrs in Hlen.
  assert (Hin : bin_in (w_heap w') (bsubst a u c)) by (exists None; exact Hrep).
  destruct (p_siblings_binary V EV F (w_heap w') (bsubst a u c) t' (Rose q (ls ++ u' :: rs)) n Hin Hlen Et) as (it2 & E2 & W2 & _).
  { apply rsubtree_plug. exists cx. reflexivity. } { cbn [children]. rewrite app_length. cbn. lia. }
  assert (Eroot : raddr t' = raddr t).
  { rewrite <- Hc. unfold t'. clear. destruct cx as [|[[l' q'] r'] cx] using rev_ind; [reflexivity|]. rewrite !RoseFacts.plug_app. reflexivity. }
  rewrite (bin_root _ _ Et) in E2, W2. cbn [children] in E2, W2. rewrite Eroot in E2, W2.
  assert (Hat : nth_addr (map label (ls ++ u' :: rs)) n = Some (raddr u')).
  { unfold nth_addr. rewrite map_app, map_app, nth_error_app2; rewrite !map_length; [|lia]. rewrite Hl, Nat.sub_diag. reflexivity. }
  rewrite Hat in E2.
  assert (Esk : skipn n (map label (ls ++ u' :: rs)) = label u' :: skipn (S n) (map label (ls ++ s0 :: rs))).
  { rewrite !map_app, !skipn_app, !map_length, Hl. rewrite (skipn_all2 (n := n)) by (rewrite map_length; lia). rewrite (skipn_all2 (n := S n)) by (rewrite map_length; lia). rewrite Nat.sub_diag. replace (S n - n) with 1 by lia. reflexivity. }
  rewrite Esk in W2. cbn [children]. rewrite <- W2. unfold iterate_from. destruct (tree_end _ _ _ _) as [e|]; [|reflexivity]. cbn [mbind res_bind].
  injection E0 as <-. cbn [it_kind it_cur it_root it_open] in *. injection E2 as <-.
  apply same_walk; [|rewrite Hki, G1; discriminate]. unfold same_iter. cbn [it_kind it_cur it_root it_open].
  split; [congruence|]. split; [rewrite Hcu; reflexivity|]. split; [congruence|]. rewrite (insert_over_open _ _ _ _ _ _ _ _ _ E) by congruence. exact G4.
Qed.
Print Assumptions C41_siblings_binary_partial.

Example C41_siblings_used : exists u it w',
  insert_over 100 (nary_impl nat) (first_fit _) ex_nw 1%positive (Iter Siblings (Some 3%positive) (Some 1%positive) [] (Some 3%positive)) (SrcValue 99) = Ret it w' /\
  iterate_from 100 (nary_impl nat) (w_heap w') it Siblings (Some 1%positive) = Ok [label u; (4%positive, 40)].
Proof.
  destruct (C41_siblings_nary_partial nat _ 100 (first_fit _) ex_word ex_nw ex_nM ex_nM 1%positive ex_nary ex_nary 1 (SrcValue 99) (Some (Rose 99 [])) 3%positive
    (Iter Siblings (Some 3%positive) (Some 1%positive) [] (Some 3%positive)) (Iter Siblings (Some 3%positive) (Some 1%positive) [] (Some 3%positive)) ex_nw_ok eq_refl) as (u & it & w' & E & _ & _ & Ew).
  - apply (GValue (nary_kind nat)).
  - vm_compute. lia.
  - discriminate.
  - apply rsub_here.
  - reflexivity.
  - reflexivity.
  - repeat split.
  - exists u, it, w'. auto.
Qed.

(** *** C41 for the policy leaves.  [pos] walked over the leaves up to the leaf [a].
    If [a] is a last child, the loop from the returned iterator visits the root of
    what was inserted and then the leaves after it: this is what C41 asks for if a
    single node was inserted; otherwise the leaves of what was inserted are left
    out. *)
Theorem C41_leaves_nary_partial :
  forall (V : Type) (EV : EqDecision V) (F : nat) (al : allocator (nnode V)), (N.of_nat F <= W64)%N ->
  forall (w : world (nnode V)) (M M1 : gmap tid (option (rose (addr * V)))) (i : tid) (t s : rose (addr * V)) (m : nat) (src : source V) (x : option (rose V)) (a : addr) (v : V) (b pos : iter)
    (q : addr * V) (ls : list (rose (addr * V))),
  consistent (nary_kind V) w M -> M !! i = Some (Some t) -> gives (nary_kind V) w M i src x M1 -> fits F w src -> x <> None ->
  nth_error (leaves t) m = Some (a, v) ->
  tree_begin F (tree_nav (nary_impl V) (w_heap w)) Leaves (Some (raddr t)) = Ok b -> run F (nary_impl V) (w_heap w) (repeat true m) b = Ok pos ->
  rsubtree (Rose q (ls ++ [s])) t -> raddr s = a ->
  exists u it w' t' l1 l2, insert_over F (nary_impl V) al w i pos src = Ret it w' /\ Some (rose_map snd u) = x /\
    nsubst a (Some u) (Some t) = Some t' /\ consistent (nary_kind V) w' (<[i := Some t']> M1) /\
    leaves t' = l1 ++ leaves u ++ l2 /\
    iterate_from F (nary_impl V) (w_heap w') it Leaves (Some (raddr t)) = Ok (label u :: l2).
Proof.
  intros V EV F al HFW w M M1 i t s m src x a v b pos q ls Hw Hi Hg Hf Hx Hm Eb Er Hsub Hs0.
  pose proof (nary_tree_kind V EV) as HK. pose proof (kind_is_ok F al HK) as KO. pose proof Hw as H. apply (to_holds F _ al _ HK HFW) in H.
  destruct (holds_get _ _ _ _ _ _ _ _ H Hi) as (tr & Htr & _).
  pose proof (holds_rep _ _ _ _ _ _ _ _ H Hi) as Hrep0. assert (Hnd : NoDup (raddrs t)) by exact (proj2 Hrep0).
  assert (Hsz0 : rsize t < F) by (pose proof (holds_size _ _ _ _ _ _ _ _ H Hi) as Hl; cbn in Hl; rewrite length_raddrs in Hl; unfold fits in Hf; lia).
  assert (Hin0 : nary_in (w_heap w) t) by (exists None, None, None, (szt 0); exact Hrep0).
  destruct (walked F _ _ _ t (nary_seen F _ t Hin0 Hsz0) m _ Hm) as (b0 & it0 & p & Eb0 & Er0 & Pk & Pc & Pr & Po & Pt).
  rewrite Eb in Eb0. injection Eb0 as <-. rewrite Er in Er0. injection Er0 as <-. cbn [fst] in Pc, Pt.
  apply rsubtree_plug in Hsub as (c & Hc). assert (Hc0 : plug ((ls, q, []) :: c) s = t) by exact Hc.
  assert (Ha : a ∈ raddrs t) by (rewrite <- Hc0, <- Hs0; exact (in_raddrs ((ls, q, []) :: c) s)).
  assert (Hst : stands F (nary_impl V) (w_heap w) (Some (raddr t)) a pos) by (split; [exact Pc|split; [exact Pr|rewrite Pk; discriminate]]).
  destruct (insert_over_ok F _ al _ KO HFW w M i (Some t) tr src x M1 a pos H Hi Htr Hg Hf Ha Hst) as (u & it & w' & E & Hu & Hp & H' & Hki & Hr & Hcu & Hs' & Hlen & _).
  { intros _ [u|] Hu; [exact I|]. cbn in Hu. congruence. }
  destruct u as [u|]; [|cbn in Hu; congruence]. set (t' := plug c (Rose q (ls ++ [u]))).
  assert (Et : nsubst a (Some u) (Some t) = Some t').
  { cbn [nsubst mbind option_bind]. rewrite <- Hc0, <- Hs0. apply (subst_at ((ls, q, []) :: c) s u). rewrite Hc0. exact Hnd. }
  assert (Hrep : crep (nary_kind V) (w_heap w') (nsubst a (Some u) (Some t))) by (eapply holds_rep; [exact H'|apply lookup_insert]).
  apply (to_holds F _ al _ HK HFW) in H'.
  change (length (naddrs (nsubst a (Some u) (Some t))) < F) in Hlen. change (consistent (nary_kind V) w' (<[i:=nsubst a (Some u) (Some t)]> M1)) in H'. rewrite Et in Hrep, Hlen, H'.
  assert (Hin : nary_in (w_heap w') t') by (exists None, None, None, (szt 0); exact Hrep).
  assert (Hsz : rsize t' < F) by (cbn [naddrs opt_list] in Hlen; rewrite length_raddrs in Hlen; exact Hlen).
  assert (Eroot : raddr t' = raddr t).
  { rewrite <- Hc. unfold t'. clear. destruct c as [|[[l' q'] r'] c] using rev_ind; [reflexivity|]. rewrite !RoseFacts.plug_app. reflexivity. }
  pose proof (nary_seen F _ t' Hin Hsz) as Hseen. rewrite Eroot in Hseen.
  assert (Htrail : trail (raddr u) (rose_map fst t') = Some p).
  { rewrite <- Pt, <- Hs0, <- Hc. apply trail_last; [rewrite Hc; exact Hnd|exact (proj2 Hrep)]. }
  destruct (step_out F _ _ _ t' Hseen ((ls, q, []) :: c) u p it eq_refl) as (l1 & l2 & El & Ew).
  { congruence. } { exact Hcu. } { congruence. } { exact Htrail. }
  { rewrite (insert_over_open _ _ _ _ _ _ _ _ _ E) by congruence. exact Po. }
  exists u, it, w', t', l1, l2. split; [exact E|]. split; [exact Hu|]. split; [exact Et|]. split; [exact H'|]. split; [exact El|exact Ew].
Qed.
Print Assumptions C41_leaves_nary_partial.

Theorem C41_leaves_binary_partial :
  forall (V : Type) (EV : EqDecision V) (F : nat) (al : allocator (bnode V)), (N.of_nat F <= W64)%N ->
  forall (w : world (bnode V)) (M M1 : gmap tid (bin (addr * V))) (i : tid) (c : bin (addr * V)) (t s : rose (addr * V)) (m : nat) (src : source V) (x : bin V) (a : addr) (v : V) (b pos : iter)
    (q : addr * V) (ls : list (rose (addr * V))),
  consistent (binary_kind V) w M -> M !! i = Some c -> bin_forest c = [t] -> gives (binary_kind V) w M i src x M1 -> fits F w src -> x <> BLeaf ->
  nth_error (leaves t) m = Some (a, v) ->
  tree_begin F (tree_nav (binary_impl V) (w_heap w)) Leaves (baddr c) = Ok b -> run F (binary_impl V) (w_heap w) (repeat true m) b = Ok pos ->
  rsubtree (Rose q (ls ++ [s])) t -> raddr s = a ->
  exists u u' it w' t' l1 l2, insert_over F (binary_impl V) al w i pos src = Ret it w' /\ bin_map snd u = x /\ bin_forest u = [u'] /\
    consistent (binary_kind V) w' (<[i := bsubst a u c]> M1) /\ bin_forest (bsubst a u c) = [t'] /\
    leaves t' = l1 ++ leaves u' ++ l2 /\
    iterate_from F (binary_impl V) (w_heap w') it Leaves (baddr c) = Ok (label u' :: l2).
Proof.
  intros V EV F al HFW w M M1 i c t s m src x a v b pos q ls Hw Hi Hct Hg Hf Hx Hm Eb Er Hsub Hs0.
  pose proof (binary_tree_kind V EV) as HK. pose proof (kind_is_ok F al HK) as KO. pose proof Hw as H. apply (to_holds F _ al _ HK HFW) in H.
  destruct (holds_get _ _ _ _ _ _ _ _ H Hi) as (tr & Htr & _).
  pose proof (holds_rep _ _ _ _ _ _ _ _ H Hi) as Hrep0. assert (Hnd0 : NoDup (baddrs c)) by exact (proj2 Hrep0).
  assert (Hrd : raddrs t = baddrs c) by (unfold raddrs, baddrs; rewrite <- forest_labels, Hct; cbn; rewrite app_nil_r; reflexivity).
  assert (Hnd : NoDup (raddrs t)) by (rewrite Hrd; exact Hnd0). pose proof (bin_root c t Hct) as Hroot.
  assert (Hsz0 : bin_size c < F) by (pose proof (holds_size _ _ _ _ _ _ _ _ H Hi) as Hl; cbn in Hl; rewrite length_baddrs in Hl; unfold fits in Hf; lia).
  assert (Hin0 : bin_in (w_heap w) c) by (exists None; exact Hrep0). rewrite Hroot in Eb.
  destruct (walked F _ _ _ t (bin_seen F _ c t Hin0 Hsz0 Hct) m _ Hm) as (b0 & it0 & p & Eb0 & Er0 & Pk & Pc & Pr & Po & Pt).
  rewrite Eb in Eb0. injection Eb0 as <-. rewrite Er in Er0. injection Er0 as <-. cbn [fst] in Pc, Pt.
  apply rsubtree_plug in Hsub as (cx & Hc). assert (Hc0 : plug ((ls, q, []) :: cx) s = t) by exact Hc.
  assert (Ha : a ∈ raddrs t) by (rewrite <- Hc0, <- Hs0; exact (in_raddrs ((ls, q, []) :: cx) s)).
  assert (Hst : stands F (binary_impl V) (w_heap w) (baddr c) a pos) by (split; [exact Pc|split; [congruence|rewrite Pk; discriminate]]).
  rewrite Hrd in Ha.
  destruct (insert_over_ok F _ al _ KO HFW w M i c tr src x M1 a pos H Hi Htr Hg Hf Ha Hst) as (u & it & w' & E & Hu & Hp & H' & Hki & Hr & Hcu & Hs' & Hlen & _).
  { intros _ u _. exact I. }
  destruct u as [|[y z] ul ur]; [cbn in Hu; congruence|]. set (u := BNode (y, z) ul ur) in *. set (u' := Rose (y, z) (bin_forest ul ++ bin_forest ur)).
  assert (Huu : bin_forest u = [u']) by reflexivity. set (t' := plug cx (Rose q (ls ++ [u']))).
  assert (Et : bin_forest (bsubst a u c) = [t']).
  { rewrite (forest_subst a u u' c Huu), Hct. cbn [flat_map]. rewrite <- Hc0, <- Hs0. rewrite (subst_at ((ls, q, []) :: cx) s u') by (rewrite Hc0; exact Hnd). reflexivity. }
  assert (Hrep : crep (binary_kind V) (w_heap w') (bsubst a u c)) by (eapply holds_rep; [exact H'|apply lookup_insert]).
  apply (to_holds F _ al _ HK HFW) in H'. change (length (baddrs (bsubst a u c)) < F) in Hlen. rewrite length_baddrs in Hlen.
  assert (Hin : bin_in (w_heap w') (bsubst a u c)) by (exists None; exact Hrep).
  assert (Eroot : raddr t' = raddr t).
  { rewrite <- Hc. unfold t'. clear. destruct cx as [|[[l' q'] r'] cx] using rev_ind; [reflexivity|]. rewrite !RoseFacts.plug_app. reflexivity. }
  pose proof (bin_seen F _ _ t' Hin Hlen Et) as Hseen. pose proof (seen_raddrs _ _ _ _ _ Hseen) as Hnd'. rewrite Eroot in Hseen.
  assert (Htrail : trail (raddr u') (rose_map fst t') = Some p).
  { rewrite <- Pt, <- Hs0, <- Hc. apply trail_last; [rewrite Hc; exact Hnd|exact Hnd']. }
  destruct (step_out F _ _ _ t' Hseen ((ls, q, []) :: cx) u' p it eq_refl) as (l1 & l2 & El & Ew).
  { congruence. } { exact Hcu. } { congruence. } { exact Htrail. }
  { rewrite (insert_over_open _ _ _ _ _ _ _ _ _ E) by congruence. exact Po. }
  exists u, u', it, w', t', l1, l2. split; [exact E|]. split; [exact Hu|]. split; [exact Huu|]. split; [exact H'|]. split; [exact Et|]. split; [exact El|]. rewrite Hroot. exact Ew.
Qed.
Print Assumptions C41_leaves_binary_partial.

(** If [a] has a next sibling, [++] of the returned iterator reads the node [a],
    which the call released: in every tree, whatever is inserted. *)
Theorem C41_leaves_nary_refuted :
  forall (V : Type) (EV : EqDecision V) (F : nat) (al : allocator (nnode V)), (N.of_nat F <= W64)%N ->
  forall (w : world (nnode V)) (M M1 : gmap tid (option (rose (addr * V)))) (i : tid) (t s r : rose (addr * V)) (m : nat) (src : source V) (x : option (rose V)) (a : addr) (v : V) (b pos : iter)
    (q : addr * V) (ls rs : list (rose (addr * V))),
  consistent (nary_kind V) w M -> M !! i = Some (Some t) -> gives (nary_kind V) w M i src x M1 -> fits F w src -> x <> None ->
  nth_error (leaves t) m = Some (a, v) ->
  tree_begin F (tree_nav (nary_impl V) (w_heap w)) Leaves (Some (raddr t)) = Ok b -> run F (nary_impl V) (w_heap w) (repeat true m) b = Ok pos ->
  rsubtree (Rose q (ls ++ s :: r :: rs)) t -> raddr s = a ->
  exists it w', insert_over F (nary_impl V) al w i pos src = Ret it w' /\ it_cur it <> None /\
    incr F (nary_impl V) (w_heap w') it = Err Dangling.
Proof.
  intros V EV F al HFW w M M1 i t s r m src x a v b pos q ls rs Hw Hi Hg Hf Hx Hm Eb Er Hsub Hs0.
  pose proof (nary_tree_kind V EV) as HK. pose proof Hw as H. apply (to_holds F _ al _ HK HFW) in H.
  pose proof (holds_rep _ _ _ _ _ _ _ _ H Hi) as Hrep0. assert (Hnd : NoDup (raddrs t)) by exact (proj2 Hrep0).
  assert (Hsz0 : rsize t < F) by (pose proof (holds_size _ _ _ _ _ _ _ _ H Hi) as Hl; cbn in Hl; rewrite length_raddrs in Hl; unfold fits in Hf; lia).
  assert (Hin0 : nary_in (w_heap w) t) by (exists None, None, None, (szt 0); exact Hrep0).
  destruct (walked F _ _ _ t (nary_seen F _ t Hin0 Hsz0) m _ Hm) as (b0 & it0 & p & Eb0 & Er0 & Pk & Pc & Pr & Po & Pt).
  rewrite Eb in Eb0. injection Eb0 as <-. rewrite Er in Er0. injection Er0 as <-. cbn [fst] in Pc, Pt.
  apply rsubtree_plug in Hsub as (c & Hc). assert (Hc0 : plug ((ls, q, r :: rs) :: c) s = t) by exact Hc.
  assert (Ha : a ∈ raddrs t) by (rewrite <- Hc0, <- Hs0; exact (in_raddrs ((ls, q, r :: rs) :: c) s)).
  assert (Hst : stands F (nary_impl V) (w_heap w) (Some (raddr t)) a pos) by (split; [exact Pc|split; [exact Pr|rewrite Pk; discriminate]]).
  destruct (trail_next c q ls s r rs) as (p' & Hp'); [rewrite Hc; exact Hnd|]. rewrite Hc, Hs0, Pt in Hp'. injection Hp' as ->.
  destruct (C27_insert_over V EV _ _ _ F al HK HFW w M M1 i (Some t) src x a pos Hw Hi Hg Hf Ha Hst) as (u & it & w' & E & Hu & _ & _ & Hrel & Hki & Hcu & Hst').
  { intros E0. exfalso. apply Hx. exact E0. }
  assert (Hne : it_cur it <> None) by (destruct u as [u|]; [rewrite Hcu; discriminate|cbn in Hu; congruence]).
  assert (Hra : raddr t <> a).
  { intros <-. rewrite <- Hc0 in Hnd, Hs0. pose proof (proj1 (label_root _ _ Hnd) Hs0). discriminate. }
  assert (Hr : it_root it = Some (raddr t)).
  { destruct u as [u|]; [|cbn in Hu; congruence]. apply (Hst' ltac:(intros E0; injection E0; exact Hra) _ eq_refl). }
  exists it, w'. split; [exact E|]. split; [exact Hne|].
  assert (Hq : w_heap w' !! a = None).
  { apply Hrel. cbn [csub nary_kind nsub]. change (a ∈ naddrs (rsub a t)).
    rewrite <- Hc0, <- Hs0. rewrite (rsub_plug (raddr s)); [destruct s as [[? ?] ?]; left|reflexivity|].
    destruct (NoDup_plug ((ls, q, r :: rs) :: c) s) as (_ & _ & Hd); [rewrite Hc0; exact Hnd|]. intros Hxx. apply (Hd (raddr s)); [|exact Hxx]. destruct s as [[? ?] ?]. left. }
  eapply leaves_dangling; [congruence|exact Hne|exact Hr|rewrite (insert_over_open _ _ _ _ _ _ _ _ _ E) by congruence; exact Po|].
  cbn. unfold base_unless_root, base_is_root. rewrite ptr_eqb_false by congruence. cbn. unfold n_next, deref. rewrite Hq. reflexivity.
Qed.
Print Assumptions C41_leaves_nary_refuted.

Theorem C41_leaves_binary_refuted :
  forall (V : Type) (EV : EqDecision V) (F : nat) (al : allocator (bnode V)), (N.of_nat F <= W64)%N ->
  forall (w : world (bnode V)) (M M1 : gmap tid (bin (addr * V))) (i : tid) (c : bin (addr * V)) (t s r : rose (addr * V)) (m : nat) (src : source V) (x : bin V) (a : addr) (v : V) (b pos : iter)
    (q : addr * V) (ls rs : list (rose (addr * V))),
  consistent (binary_kind V) w M -> M !! i = Some c -> bin_forest c = [t] -> gives (binary_kind V) w M i src x M1 -> fits F w src -> x <> BLeaf ->
  nth_error (leaves t) m = Some (a, v) ->
  tree_begin F (tree_nav (binary_impl V) (w_heap w)) Leaves (baddr c) = Ok b -> run F (binary_impl V) (w_heap w) (repeat true m) b = Ok pos ->
  rsubtree (Rose q (ls ++ s :: r :: rs)) t -> raddr s = a ->
  exists it w', insert_over F (binary_impl V) al w i pos src = Ret it w' /\ it_cur it <> None /\
    incr F (binary_impl V) (w_heap w') it = Err Dangling.
Proof.
  intros V EV F al HFW w M M1 i cc t s r m src x a v b pos q ls rs Hw Hi Hct Hg Hf Hx Hm Eb Er Hsub Hs0.
  pose proof (binary_tree_kind V EV) as HK. pose proof Hw as H. apply (to_holds F _ al _ HK HFW) in H.
  pose proof (holds_rep _ _ _ _ _ _ _ _ H Hi) as Hrep0. assert (Hnd0 : NoDup (baddrs cc)) by exact (proj2 Hrep0).
  assert (Hrd : raddrs t = baddrs cc) by (unfold raddrs, baddrs; rewrite <- forest_labels, Hct; cbn; rewrite app_nil_r; reflexivity).
  assert (Hnd : NoDup (raddrs t)) by (rewrite Hrd; exact Hnd0). pose proof (bin_root cc t Hct) as Hroot.
  assert (Hsz0 : bin_size cc < F) by (pose proof (holds_size _ _ _ _ _ _ _ _ H Hi) as Hl; cbn in Hl; rewrite length_baddrs in Hl; unfold fits in Hf; lia).
  assert (Hin0 : bin_in (w_heap w) cc) by (exists None; exact Hrep0). rewrite Hroot in Eb.
  destruct (walked F _ _ _ t (bin_seen F _ cc t Hin0 Hsz0 Hct) m _ Hm) as (b0 & it0 & p & Eb0 & Er0 & Pk & Pc & Pr & Po & Pt).
  rewrite Eb in Eb0. injection Eb0 as <-. rewrite Er in Er0. injection Er0 as <-. cbn [fst] in Pc, Pt.
  apply rsubtree_plug in Hsub as (c & Hc). assert (Hc0 : plug ((ls, q, r :: rs) :: c) s = t) by exact Hc.
  assert (Ha : a ∈ raddrs t) by (rewrite <- Hc0, <- Hs0; exact (in_raddrs ((ls, q, r :: rs) :: c) s)).
  assert (Hst : stands F (binary_impl V) (w_heap w) (baddr cc) a pos) by (split; [exact Pc|split; [congruence|rewrite Pk; discriminate]]).
  destruct (trail_next c q ls s r rs) as (p' & Hp'); [rewrite Hc; exact Hnd|]. rewrite Hc, Hs0, Pt in Hp'. injection Hp' as ->.
  rewrite Hrd in Ha.
  destruct (C27_insert_over V EV _ _ _ F al HK HFW w M M1 i cc src x a pos Hw Hi Hg Hf Ha Hst) as (u & it & w' & E & Hu & _ & _ & Hrel & Hki & Hcu & Hst').
  { intros E0. exfalso. apply Hx. exact E0. }
  assert (Hne : it_cur it <> None) by (destruct u as [|[y z] ul ur]; [cbn in Hu; congruence|rewrite Hcu; discriminate]).
  assert (Hra : raddr t <> a).
  { intros <-. rewrite <- Hc0 in Hnd, Hs0. pose proof (proj1 (label_root _ _ Hnd) Hs0). discriminate. }
  assert (Hr : it_root it = Some (raddr t)).
  { destruct u as [|[y z] ul ur]; [cbn in Hu; congruence|]. rewrite <- Hroot. apply (Hst' ltac:(cbn; rewrite Hroot; intros E0; injection E0; exact Hra) _ eq_refl). }
  exists it, w'. split; [exact E|]. split; [exact Hne|].
  assert (Hq : w_heap w' !! a = None).
  { apply Hrel. destruct (bin_find _ _ _ Hrep0 Ha) as (? & y & ul & ur & _ & Eb' & _). change (a ∈ baddrs (bsub a cc)). rewrite Eb'. left. }
  eapply leaves_dangling; [congruence|exact Hne|exact Hr|rewrite (insert_over_open _ _ _ _ _ _ _ _ _ E) by congruence; exact Po|].
  cbn. unfold base_unless_root, base_is_root. rewrite ptr_eqb_false by congruence. cbn. unfold b_next, b_is_left, deref. rewrite Hq. reflexivity.
Qed.
Print Assumptions C41_leaves_binary_refuted.

(** Replacing leaf 6 (a last child) and leaf 2 (with next siblings) of the example
    by the value 99. *)
Example C41_leaves_used :
  (exists u it w' t' l1 l2 pos, run 100 (nary_impl nat) ex_nheap [true; true] (Iter Leaves (Some 2%positive) (Some 1%positive) [Some 2%positive] None) = Ok pos /\
     insert_over 100 (nary_impl nat) (first_fit _) ex_nw 1%positive pos (SrcValue 99) = Ret it w' /\ leaves t' = l1 ++ leaves u ++ l2 /\
     iterate_from 100 (nary_impl nat) (w_heap w') it Leaves (Some 1%positive) = Ok (label u :: l2)) /\
  (exists it w', insert_over 100 (nary_impl nat) (first_fit _) ex_nw 1%positive (Iter Leaves (Some 2%positive) (Some 1%positive) [Some 2%positive] None) (SrcValue 99) = Ret it w' /\
     incr 100 (nary_impl nat) (w_heap w') it = Err Dangling).
Proof.
  split.
  - destruct (run 100 (nary_impl nat) ex_nheap [true; true] (Iter Leaves (Some 2%positive) (Some 1%positive) [Some 2%positive] None)) as [pos|] eqn:Er; [|vm_compute in Er; discriminate].
    destruct (C41_leaves_nary_partial nat _ 100 (first_fit _) ex_word ex_nw ex_nM ex_nM 1%positive ex_nary (Rose (6%positive, 60) []) 2 (SrcValue 99) (Some (Rose 99 [])) 6%positive 60
      (Iter Leaves (Some 2%positive) (Some 1%positive) [Some 2%positive] None) pos (3%positive, 30) [Rose (5%positive, 50) []] ex_nw_ok eq_refl)
      as (u & it & w' & t' & l1 & l2 & E & _ & _ & _ & El & Ew).
    + apply (GValue (nary_kind nat)).
    + vm_compute. lia.
    + discriminate.
    + reflexivity.
    + vm_compute. reflexivity.
    + exact Er.
    + eapply rsub_child; [|apply rsub_here]. right. left.
    + reflexivity.
    + exists u, it, w', t', l1, l2, pos. auto.
  - destruct (C41_leaves_nary_refuted nat _ 100 (first_fit _) ex_word ex_nw ex_nM ex_nM 1%positive ex_nary (Rose (2%positive, 20) []) (Rose (3%positive, 30) [Rose (5%positive, 50) []; Rose (6%positive, 60) []]) 0 (SrcValue 99) (Some (Rose 99 [])) 2%positive 20
      (Iter Leaves (Some 2%positive) (Some 1%positive) [Some 2%positive] None) (Iter Leaves (Some 2%positive) (Some 1%positive) [Some 2%positive] None) (1%positive, 10) [] [Rose (4%positive, 40) []] ex_nw_ok eq_refl)
      as (it & w' & E & _ & Ed).
    + apply (GValue (nary_kind nat)).
    + vm_compute. lia.
    + discriminate.
    + reflexivity.
    + vm_compute. reflexivity.
    + reflexivity.
    + apply rsub_here.
    + reflexivity.
    + exists it, w'. auto.
Qed.
